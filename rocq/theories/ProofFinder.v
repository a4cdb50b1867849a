From Verif Require Import Base ListX Str ModelPath ModelPathFilter SpecPathFilter ModelFileDiff ModelFinder SpecFinder.
From Verif Require ProofPathFilter.
Local Open Scope N_scope.
Local Notation str := (list N).

Lemma tree_ind2 (P : tree -> Prop) : P Nil ->
  (forall n nd r, match nd with Dir _ (Opened t) => P t | _ => True end -> P r -> P (Entry n nd r)) ->
  forall t, P t.
Proof.
  intros H0 H1. fix IH 1. intros [|n nd r]; [exact H0|]. apply H1; [|apply IH].
  destruct nd as [e|mt sz| |mt [e|t]]; try exact Logic.I. apply IH.
Qed.

Lemma everywhere_inv P n nd r : everywhere P (Entry n nd r) ->
  P n nd /\ match nd with Dir _ (Opened t') => everywhere P t' | _ => True end /\ everywhere P r.
Proof. exact (fun H => H). Qed.

Lemma dotname_spec n : dotname n = true <-> dot_or_dotdot n.
Proof.
  unfold dotname, dot_or_dotdot. destruct (seqb_spec n [46]), (seqb_spec n [46; 46]); cbn; intuition congruence.
Qed.

Lemma make_calls_app {A} (h : A -> str -> str -> Z -> N -> bool -> outcome (A * bool)) l1 l2 s :
  make_calls h (l1 ++ l2) s = do (s', ok) <- make_calls h l1 s; if (ok : bool) then make_calls h l2 s' else Ok (s', false).
Proof.
  revert s. induction l1 as [|((((d & n) & mt) & sz) & b) l1 IH]; intros s; cbn [make_calls app bind]; [reflexivity|].
  destruct (h s d n mt sz b) as [[s' [|]]| | |]; cbn [bind]; auto.
Qed.

(** How a list of calls with an optional error ends nftw. *)
Definition ending {A} (o : outcome (A * bool)) (e : option N) : outcome (A * ret) :=
  do (s, ok) <- o;
  Ok (s, if (ok : bool) then match e with None => Continue | Some e => Failed e end else Stop).

Section Walk.
Context {A : Type}.
Variable h : A -> str -> str -> Z -> N -> bool -> outcome (A * bool).
Variable recursive : bool.

Lemma sub_dir dir n : good_name n ->
  match last_char (dir ++ n) with Some c => if c =? slash then dir ++ n else (dir ++ n) ++ [slash] | None => (dir ++ n) ++ [slash] end
  = dir ++ n ++ [47].
Proof.
  intros (N0 & N1 & _). destruct (@exists_last _ n) as (m & c & ->); [exact N0|].
  unfold last_char. rewrite !rev_app_distr. cbn [rev app].
  destruct (N.eqb_spec c slash) as [->|_]; [|now rewrite <- !app_assoc].
  exfalso. apply N1. apply in_or_app. right. now left.
Qed.

Lemma walk_calls t : good_names t -> forall dir level s,
  walk_tree h recursive t dir (S level) s =
  ending (make_calls h (fst (calls recursive dir t)) s) (snd (calls recursive dir t)).
Proof.
  induction t as [|n nd r IHn IHr] using tree_ind2; intros G dir level s; [reflexivity|].
  apply everywhere_inv in G. destruct G as (Gn & Gs & Gr). specialize (IHr Gr).
  cbn [walk_tree calls].
  destruct (dotname n) eqn:Ed.
  { apply dotname_spec in Ed. rewrite IHr.
    destruct (list_eq_dec N.eq_dec n [46]) as [E|E].
    - destruct (calls recursive dir r). reflexivity.
    - destruct (list_eq_dec N.eq_dec n [46; 46]) as [E'|E'].
      + destruct (calls recursive dir r). reflexivity.
      + exfalso. destruct Ed; contradiction. }
  assert (Nd : ~ dot_or_dotdot n) by (rewrite <- dotname_spec; congruence).
  destruct (list_eq_dec N.eq_dec n [46]) as [E|E]; [exfalso; apply Nd; now left|].
  destruct (list_eq_dec N.eq_dec n [46; 46]) as [E'|E']; [exfalso; apply Nd; now right|].
  destruct nd as [e|mt sz| |mt [e|t]]; cbn [walk_node walk_dir ftw_handler].
  - unfold EACCES, ENOENT. destruct ((e =? 13) || (e =? 2)); cbn [bind ftw_handler].
    + rewrite IHr. destruct (calls recursive dir r). reflexivity.
    + reflexivity.
  - destruct (calls recursive dir r) as [l' e'] eqn:Ec. cbn [fst snd app make_calls].
    destruct (h s dir n mt sz false) as [[s' [|]]| | |]; cbn [bind]; try reflexivity.
    rewrite IHr, Ec. reflexivity.
  - cbn [bind]. rewrite IHr. destruct (calls recursive dir r). reflexivity.
  - unfold EACCES. destruct (e =? 13); cbn [bind ftw_handler].
    + rewrite IHr. destruct (calls recursive dir r). reflexivity.
    + reflexivity.
  - rewrite Ed. cbn [Nat.ltb Nat.leb negb andb].
    destruct recursive eqn:Er.
    + destruct (calls true (dir ++ n ++ [47]) t) as [l e] eqn:Ec.
      assert (IHt : forall level s, walk_tree h true t (dir ++ n ++ [47]) (S level) s = ending (make_calls h l s) e).
      { intros level' s'. rewrite (IHn Gs), Ec. reflexivity. }
      rewrite sub_dir by exact Gn.
      destruct (calls true dir r) as [l' e'] eqn:Ec'.
      destruct e as [e|].
      * cbn [fst snd make_calls]. destruct (h s dir n mt 0 true) as [[s' [|]]| | |]; cbn [bind]; try reflexivity.
        rewrite IHt. unfold ending. destruct (make_calls h l s') as [[s'' [|]]| | |]; reflexivity.
      * cbn [fst snd make_calls app]. destruct (h s dir n mt 0 true) as [[s' [|]]| | |]; cbn [bind]; try reflexivity.
        rewrite IHt, make_calls_app. unfold ending at 1.
        destruct (make_calls h l s') as [[s'' [|]]| | |]; cbn [bind]; try reflexivity.
        rewrite IHr, Ec'. reflexivity.
    + destruct (calls false dir r) as [l' e'] eqn:Ec'. cbn [fst snd make_calls app].
      destruct (h s dir n mt 0 true) as [[s' [|]]| | |]; cbn [bind]; try reflexivity.
      rewrite IHr, Ec'. reflexivity.
Qed.
End Walk.

(** ** Stripping slashes *)
Lemma drop_slashes_not l c : c <> 47 -> drop_slashes (c :: l) = c :: l.
Proof.
  intros H. cbn. destruct l; [reflexivity|]. destruct (N.eqb_spec c slash); [contradiction|reflexivity].
Qed.
Lemma strip_one base p : one_slash base p -> strip base = p.
Proof.
  intros [|q c H]; [reflexivity|]. unfold strip.
  rewrite rev_app_distr. cbn [rev app].
  change (drop_slashes (47 :: c :: rev q)) with (drop_slashes (c :: rev q)).
  rewrite drop_slashes_not by exact H. cbn [rev]. now rewrite rev_involutive.
Qed.
Lemma one_slash_ends base p : one_slash base p -> exists q, base = q ++ [47].
Proof.
  intros [|q c H]; [now exists []|]. exists (q ++ [c]). now rewrite <- app_assoc.
Qed.

Lemma firstn_skipn_base (p : str) : firstn (base_of p) p ++ skipn (base_of p) p = p.
Proof. apply firstn_skipn. Qed.

Lemma sub_root base p : one_slash base p ->
  match last_char p with Some c => if c =? slash then p else p ++ [slash] | None => p ++ [slash] end = base.
Proof.
  intros [|q c H]; [reflexivity|]. unfold last_char. rewrite rev_app_distr. cbn [rev app].
  destruct (N.eqb_spec c slash); [contradiction|]. now rewrite <- app_assoc.
Qed.

Lemma walk_dir_opened {A} (h : A -> str -> str -> Z -> N -> bool -> outcome (A * bool)) recursive t mt dir n level s :
  walk_dir h recursive (Opened t) mt dir n level s =
  do (s', r) <- ftw_handler h recursive s dir n FTW_D level mt 0;
  match r with
  | Continue => walk_tree h recursive t (match last_char (dir ++ n) with Some c => if c =? slash then dir ++ n else (dir ++ n) ++ [slash] | None => (dir ++ n) ++ [slash] end) (S level) s'
  | _ => Ok (s', r)
  end.
Proof. reflexivity. Qed.

Lemma search_calls {A} (h : A -> str -> str -> Z -> N -> bool -> outcome (A * bool)) recursive fs base p mt t s :
  one_slash base p -> fs p = Dir mt (Opened t) -> good_names t ->
  search_files h recursive fs base s =
  do (s', ok) <- make_calls h (fst (calls recursive base t)) s;
  Ok (s', if (ok : bool) then match snd (calls recursive base t) with None => true | Some e => e =? 2 end else false).
Proof.
  intros O F G. unfold search_files, nftw.
  pose proof (one_slash_ends _ _ O) as (q & E0). destruct base as [|b0 base'] eqn:Eb; [destruct q; discriminate|].
  rewrite <- Eb in *. rewrite (strip_one _ _ O), F, walk_dir_opened. cbn [ftw_handler].
  change (Nat.ltb 0 0) with false. cbn [andb bind].
  rewrite firstn_skipn_base, (sub_root _ _ O).
  rewrite (walk_calls h recursive t G base 0 s). unfold ending, ENOENT.
  destruct (make_calls h _ s) as [[s' [|]]| | |]; cbn [bind]; try reflexivity.
  destruct (snd (calls recursive base t)) as [e|]; reflexivity.
Qed.

(** ** Which calls *)
Definition rel (l : list str) : str := concat (map (fun c => c ++ [47]) l).
Lemma slashed_rel l n : slashed (l ++ [n]) = rel l ++ n.
Proof.
  induction l as [|a l IH]; [reflexivity|]. cbn [app slashed rel map concat]. 
  destruct (l ++ [n]) as [|x y] eqn:E; [destruct l; discriminate|].
  rewrite IH. unfold rel. rewrite <- !app_assoc. reflexivity.
Qed.

Lemma calls_ok recursive t : searchable t -> forall dir, snd (calls recursive dir t) = None.
Proof.
  induction t as [|n nd r IHn IHr] using tree_ind2; intros S dir; [reflexivity|].
  apply everywhere_inv in S. destruct S as (Sn & Ss & Sr). specialize (IHr Sr dir). cbn [calls].
  assert (E : snd (if list_eq_dec N.eq_dec n [46] then ([] : list call, None)
        else if list_eq_dec N.eq_dec n [46; 46] then ([], None)
        else match nd with
             | NoStat e => ([], if (e =? 13) || (e =? 2) then None else Some e)
             | Link => ([], None)
             | Other mt sz => ([(dir, n, mt, sz, false)], None)
             | Dir _ (OpenErr e) => ([], if e =? 13 then None else Some e)
             | Dir mt (Opened t') =>
                 let '(l, e) := if recursive then calls recursive (dir ++ n ++ [47]) t' else ([], None) in
                 ((dir, n, mt, 0, true) :: l, e)
             end) = None).
  { destruct (list_eq_dec N.eq_dec n [46]); [reflexivity|]. destruct (list_eq_dec N.eq_dec n [46; 46]); [reflexivity|].
    destruct nd as [e|mt sz| |mt [e|t]]; try reflexivity.
    - destruct Sn as [->| ->]; reflexivity.
    - rewrite Sn. reflexivity.
    - destruct recursive; [|reflexivity]. specialize (IHn Ss (dir ++ n ++ [47])).
      destruct (calls true (dir ++ n ++ [47]) t). exact IHn. }
  destruct (if list_eq_dec N.eq_dec n [46] then _ else _) as [l e]. cbn in E. subst e.
  destruct (calls recursive dir r). exact IHr.
Qed.

Lemma calls_cons recursive dir n nd r : snd (calls recursive dir (Entry n nd r)) = None ->
  fst (calls recursive dir (Entry n nd r)) =
  (if list_eq_dec N.eq_dec n [46] then []
   else if list_eq_dec N.eq_dec n [46; 46] then []
   else match nd with
        | Other mt sz => [(dir, n, mt, sz, false)]
        | Dir mt (Opened t') =>
            (dir, n, mt, 0, true) :: (if recursive then fst (calls recursive (dir ++ n ++ [47]) t') else [])
        | _ => []
        end) ++ fst (calls recursive dir r).
Proof.
  cbn [calls]. destruct (calls recursive dir r) as [l' e'].
  destruct (list_eq_dec N.eq_dec n [46]); [reflexivity|]. destruct (list_eq_dec N.eq_dec n [46; 46]); [reflexivity|].
  destruct nd as [e|mt sz| |mt [e|t]]; try reflexivity.
  - destruct ((e =? 13) || (e =? 2)); [reflexivity|discriminate].
  - destruct (e =? 13); [reflexivity|discriminate].
  - destruct recursive; [|reflexivity]. destruct (calls true (dir ++ n ++ [47]) t) as [l [e|]]; [discriminate|reflexivity].
Qed.

(** The call made for a node. *)
Definition call_for (dir n : str) (nd : node) : option call :=
  match nd with
  | Other mt sz => Some (dir, n, mt, sz, false)
  | Dir mt (Opened _) => Some (dir, n, mt, 0, true)
  | _ => None
  end.

Lemma entry_inv n nd r m md : entry (Entry n nd r) m md -> (m = n /\ md = nd) \/ entry r m md.
Proof. intros H. inversion H; subst; auto. Qed.
Lemma at_path_inv t l n nd : at_path t (l ++ [n]) nd ->
  (l = [] /\ entry t n nd /\ ~ dot_or_dotdot n) \/
  (exists x l' mt t', l = x :: l' /\ entry t x (Dir mt (Opened t')) /\ ~ dot_or_dotdot x /\ at_path t' (l' ++ [n]) nd).
Proof.
  destruct l as [|x l]; cbn [app]; intros H; inversion H as [t0 m0 md0 He Hd|t0 m0 mt t' l' md0 He Hd Hl]; subst.
  - auto.
  - inversion Hl.
  - destruct l; discriminate.
  - right. exists x, l, mt, t'. auto.
Qed.

Lemma calls_in recursive t : searchable t -> forall dir c,
  In c (fst (calls recursive dir t)) <->
  exists l n nd, at_path t (l ++ [n]) nd /\ call_for (dir ++ rel l) n nd = Some c /\ (recursive = true \/ l = []).
Proof.
  induction t as [|n nd r IHn IHr] using tree_ind2; intros S dir c.
  { cbn. split; [tauto|]. intros (l & n & nd & H & _). exfalso.
    apply at_path_inv in H. destruct H as [(_ & He & _)|(x & l' & mt & t' & _ & He & _)]; inversion He. }
  rewrite (calls_cons recursive dir n nd r) by now apply calls_ok.
  apply everywhere_inv in S. destruct S as (Sn & Ss & Sr). specialize (IHr Sr dir c).
  rewrite in_app_iff, IHr. split.
  - intros [H|(l & m & md & H & Hc & Hr)].
    + destruct (list_eq_dec N.eq_dec n [46]) as [|N1]; [contradiction|].
      destruct (list_eq_dec N.eq_dec n [46; 46]) as [|N2]; [contradiction|].
      assert (Nd : ~ dot_or_dotdot n) by (intros [|]; contradiction).
      destruct nd as [e|mt sz| |mt [e|t]]; try contradiction.
      * destruct H as [<-|[]]. exists [], n, (Other mt sz). cbn. rewrite app_nil_r. split; [|auto].
        apply at_direct; [constructor|exact Nd].
      * destruct H as [<-|H].
        { exists [], n, (Dir mt (Opened t)). cbn. rewrite app_nil_r. split; [|auto]. apply at_direct; [constructor|exact Nd]. }
        destruct recursive; [|contradiction]. apply (IHn Ss) in H. destruct H as (l & m & md & H & Hc & _).
        exists (n :: l), m, md. split; [|split; [|auto]].
        -- cbn [app]. eapply at_below; [constructor|exact Nd|exact H].
        -- cbn [rel map concat]. rewrite <- !app_assoc in *. exact Hc.
    + exists l, m, md. split; [|auto].
      apply at_path_inv in H. destruct H as [(-> & He & Hd)|(x & l' & mt & t' & -> & He & Hd & Hl)].
      * apply at_direct; [now constructor|exact Hd].
      * cbn [app]. eapply at_below; [constructor; exact He|exact Hd|exact Hl].
  - intros (l & m & md & H & Hc & Hr).
    apply at_path_inv in H. destruct H as [(-> & He & Hd)|(x & l' & mt & t' & -> & He & Hd & Hl)].
    + apply entry_inv in He. destruct He as [(-> & ->)|He].
      * left. destruct (list_eq_dec N.eq_dec n [46]); [exfalso; apply Hd; now left|].
        destruct (list_eq_dec N.eq_dec n [46; 46]); [exfalso; apply Hd; now right|].
        cbn [rel map concat] in Hc. rewrite app_nil_r in Hc.
        destruct nd as [e|mt sz| |mt [e|t]]; try discriminate Hc; injection Hc as <-; now left.
      * right. exists [], m, md. split; [now apply at_direct|auto].
    + apply entry_inv in He. destruct He as [(-> & <-)|He].
      * left. destruct (list_eq_dec N.eq_dec n [46]); [exfalso; apply Hd; now left|].
        destruct (list_eq_dec N.eq_dec n [46; 46]); [exfalso; apply Hd; now right|].
        destruct Hr as [->|Hr]; [|discriminate]. right. apply (IHn Ss). exists l', m, md.
        split; [exact Hl|]. split; [|auto]. cbn [rel map concat] in Hc. rewrite <- !app_assoc in *. exact Hc.
      * right. exists (x :: l'), m, md. split; [|auto]. cbn [app]. eapply at_below; [exact He|exact Hd|exact Hl].
Qed.

(** ** Names on the way, and uniqueness *)
Lemma entry_everywhere P t n nd : everywhere P t -> entry t n nd ->
  P n nd /\ match nd with Dir _ (Opened t') => everywhere P t' | _ => True end.
Proof.
  intros E H. induction H; apply everywhere_inv in E; destruct E as (E1 & E2 & E3); auto.
Qed.
Lemma at_path_names t l nd : good_names t -> at_path t l nd -> Forall good_name l /\ l <> [].
Proof.
  intros G H. induction H as [t n nd He Hd|t n mt t' l nd He Hd Hl IH].
  - apply (entry_everywhere _ _ _ _ G) in He. split; [|discriminate]. constructor; [tauto|constructor].
  - apply (entry_everywhere _ _ _ _ G) in He. destruct He as [Hn Ht]. split; [|discriminate].
    constructor; [exact Hn|]. now apply IH.
Qed.
Lemma slashed_nul l : Forall good_name l -> ~ In 0 (slashed l).
Proof.
  induction l as [|n l IH]; [auto|]. intros F. pose proof (Forall_inv F) as (_ & _ & Hn). pose proof (Forall_inv_tail F) as Ft.
  cbn [slashed]. destruct l as [|m l]; [exact Hn|]. rewrite in_app_iff. intros [X|[X|X]]; [contradiction|discriminate|].
  exact (IH Ft X).
Qed.
Lemma split_slash (a b c d : str) : ~ In 47 a -> ~ In 47 c -> a ++ 47 :: b = c ++ 47 :: d -> a = c /\ b = d.
Proof.
  revert c. induction a as [|x a IH]; intros [|y c] Ha Hc E; cbn in E.
  - injection E as ->. auto.
  - injection E as <- _. exfalso. apply Hc. now left.
  - injection E as -> _. exfalso. apply Ha. now left.
  - injection E as <- E. destruct (IH c) as [-> ->]; auto; intros X; [apply Ha|apply Hc]; now right.
Qed.
Lemma slashed_inj l1 l2 : Forall good_name l1 -> Forall good_name l2 -> l1 <> [] -> l2 <> [] ->
  slashed l1 = slashed l2 -> l1 = l2.
Proof.
  revert l2. induction l1 as [|a l1 IH]; intros l2 F1 F2 N1 N2 E; [contradiction|].
  destruct l2 as [|b l2]; [contradiction|].
  pose proof (Forall_inv F1) as (_ & A & _). pose proof (Forall_inv F2) as (_ & B & _).
  apply Forall_inv_tail in F1, F2. cbn [slashed] in E.
  destruct l1 as [|a' l1], l2 as [|b' l2].
  - now subst.
  - exfalso. apply A. rewrite E. apply in_or_app. right. now left.
  - exfalso. apply B. rewrite <- E. apply in_or_app. right. now left.
  - apply split_slash in E; auto. destruct E as [-> E]. f_equal. apply IH; auto; discriminate.
Qed.

Lemma entry_names t n nd : entry t n nd -> In n (names t).
Proof. induction 1; cbn; auto. Qed.
Lemma entry_unique t n nd1 nd2 : distinct t -> entry t n nd1 -> entry t n nd2 -> nd1 = nd2.
Proof.
  induction t as [|m md r _ IH] using tree_ind2; intros D H1 H2; [inversion H1|].
  destruct D as (D1 & _ & D3). apply entry_inv in H1, H2.
  destruct H1 as [[-> ->]|H1], H2 as [[E ->]|H2]; auto.
  - apply entry_names in H2. contradiction.
  - subst. apply entry_names in H1. contradiction.
Qed.
Lemma entry_distinct t n mt t' : distinct t -> entry t n (Dir mt (Opened t')) -> distinct t'.
Proof.
  induction t as [|m md r _ IH] using tree_ind2; intros D H; [inversion H|].
  destruct D as (D1 & D2 & D3). apply entry_inv in H. destruct H as [[-> <-]|H]; auto.
Qed.
Lemma at_path_unique t l nd1 nd2 : distinct t -> at_path t l nd1 -> at_path t l nd2 -> nd1 = nd2.
Proof.
  intros D H. revert nd2 D. induction H as [t n nd He Hd|t n mt t' l nd He Hd Hl IH]; intros nd2 D H2.
  - inversion H2 as [t0 m0 md0 He2 Hd2|t0 m0 mt2 t2 l2 md0 He2 Hd2 Hl2]; subst.
    + eapply entry_unique; eauto.
    + inversion Hl2.
  - inversion H2 as [t0 m0 md0 He2 Hd2|t0 m0 mt2 t2 l2 md0 He2 Hd2 Hl2]; subst.
    + inversion Hl.
    + pose proof (entry_unique _ _ _ _ D He He2) as E. injection E as <- <-.
      apply IH; [|exact Hl2]. eapply entry_distinct; eauto.
Qed.

(** No two calls are for the same path. *)
Definition target (c : call) : str := let '(d, n, _, _, _) := c in d ++ n.

Lemma calls_prefix recursive t : forall dir c, In c (fst (calls recursive dir t)) -> exists r, target c = dir ++ r.
Proof.
  induction t as [|n nd r IHn IHr] using tree_ind2; intros dir c H; [contradiction|].
  cbn [calls] in H. specialize (IHr dir c).
  destruct (list_eq_dec N.eq_dec n [46]); [destruct (calls recursive dir r); auto|].
  destruct (list_eq_dec N.eq_dec n [46; 46]); [destruct (calls recursive dir r); auto|].
  destruct nd as [e|mt sz| |mt [e|t]].
  - destruct ((e =? 13) || (e =? 2)); [destruct (calls recursive dir r); auto|contradiction].
  - destruct (calls recursive dir r) as [l' e']. destruct H as [<-|H]; [now exists n|auto].
  - destruct (calls recursive dir r); auto.
  - destruct (e =? 13); [destruct (calls recursive dir r); auto|contradiction].
  - assert (Hs : forall l e, (if recursive then calls recursive (dir ++ n ++ [47]) t else ([], None)) = (l, e) ->
                  In c l -> exists r, target c = dir ++ r).
    { intros l e E Hc. destruct recursive; [|injection E as <- <-; contradiction].
      destruct (IHn (dir ++ n ++ [47]) c) as [q ->]; [rewrite E; exact Hc|].
      rewrite <- app_assoc. eauto. }
    destruct (if recursive then _ else _) as [l [e|]].
    + destruct H as [<-|H]; [now exists n|]. eapply Hs; eauto.
    + destruct (calls recursive dir r) as [l' e']. destruct H as [<-|H]; [now exists n|].
      apply in_app_or in H. destruct H as [H|H]; [eapply Hs; eauto|auto].
Qed.

Lemma nodup_app {B} (l1 l2 : list B) : NoDup l1 -> NoDup l2 -> (forall x, In x l1 -> ~ In x l2) -> NoDup (l1 ++ l2).
Proof.
  intros H1 H2 D. induction H1 as [|x l1 Hx H1 IH]; [exact H2|]. cbn. constructor.
  - rewrite in_app_iff. intros [X|X]; [contradiction|]. apply (D x); [now left|exact X].
  - apply IH. intros y Hy. apply D. now right.
Qed.
Lemma calls_nodup recursive t : searchable t -> good_names t -> distinct t -> forall dir,
  NoDup (map target (fst (calls recursive dir t))).
Proof.
  induction t as [|n nd r IHn IHr] using tree_ind2; intros S G D dir; [constructor|].
  rewrite (calls_cons recursive dir n nd r) by now apply calls_ok.
  apply everywhere_inv in S, G. destruct S as (Sn & Ss & Sr), G as (Gn & Gs & Gr), D as (Dn & Ds & Dr).
  rewrite map_app. apply nodup_app.
  - destruct (list_eq_dec N.eq_dec n [46]); [constructor|]. destruct (list_eq_dec N.eq_dec n [46; 46]); [constructor|].
    destruct nd as [e|mt sz| |mt [e|t]]; try constructor; try constructor; auto.
    + destruct recursive; [|auto]. intros H. apply in_map_iff in H. destruct H as (c & E & Hc).
      apply calls_prefix in Hc. destruct Hc as [q Hq]. rewrite Hq in E. cbn in E.
      rewrite <- !app_assoc in E. apply app_inv_head in E.
      assert (X : length (n ++ [47] ++ q) = length n) by now rewrite E. rewrite !app_length in X. cbn in X. lia.
    + destruct recursive; [|constructor]. apply IHn; auto.
  - apply IHr; auto.
  - intros x H1 H2. apply in_map_iff in H2. destruct H2 as (c & <- & Hc).
    apply (calls_in recursive r Sr) in Hc. destruct Hc as (l & m & md & Hp & Hc & _).
    assert (Et : target c = (dir ++ rel l) ++ m).
    { destruct md as [e|mt sz| |mt [e|t]]; try discriminate Hc; injection Hc as <-; reflexivity. }
    assert (Ep : exists q, target c = dir ++ n ++ q /\ (q = [] \/ exists q', q = 47 :: q')).
    { destruct (list_eq_dec N.eq_dec n [46]); [contradiction|]. destruct (list_eq_dec N.eq_dec n [46; 46]); [contradiction|].
      destruct nd as [e|mt sz| |mt [e|t]]; try contradiction.
      - destruct H1 as [<-|[]]. exists []. rewrite app_nil_r. split; [reflexivity|now left].
      - destruct H1 as [<-|H1]; [exists []; rewrite app_nil_r; split; [reflexivity|now left]|].
        destruct recursive; [|contradiction].
        apply in_map_iff in H1. destruct H1 as (c' & <- & H1). apply calls_prefix in H1. destruct H1 as [q ->].
        exists (47 :: q). rewrite <- !app_assoc. split; [reflexivity|right; eauto]. }
    destruct Ep as (q & Ep & Hq). rewrite Ep, <- app_assoc in Et. apply app_inv_head in Et.
    pose proof (at_path_names _ _ _ Gr Hp) as [Fn _].
    assert (In n (names r)); [|contradiction].
    apply at_path_inv in Hp. destruct Hp as [(-> & He & _)|(x & l' & mt & t' & -> & He & _ & Hl)].
    + cbn in Et. destruct Hq as [->|[q' ->]].
      * rewrite app_nil_r in Et. subst. eapply entry_names; eauto.
      * exfalso. apply Forall_inv in Fn. destruct Fn as (_ & Fn & _). apply Fn. rewrite <- Et. apply in_or_app. right. now left.
    + apply Forall_inv in Fn. destruct Fn as (_ & Fn & _). destruct Gn as (_ & Gn & _).
      cbn [rel map concat] in Et. rewrite <- !app_assoc in Et. cbn [app] in Et.
      destruct Hq as [->|[q' ->]].
      * exfalso. apply Gn. rewrite app_nil_r in Et. rewrite Et. apply in_or_app. right. now left.
      * apply split_slash in Et; auto. destruct Et as [-> _]. eapply entry_names; eauto.
Qed.

(** ** AddFiles *)
Lemma calls_shape recursive t : good_names t -> forall dir d n mt sz b,
  In (d, n, mt, sz, b) (fst (calls recursive dir t)) ->
  exists l, d = dir ++ rel l /\ good_name n /\ Forall good_name l.
Proof.
  induction t as [|m nd r IHn IHr] using tree_ind2; intros G dir d n mt sz b H; [contradiction|].
  apply everywhere_inv in G. destruct G as (Gn & Gs & Gr). specialize (IHr Gr dir d n mt sz b).
  cbn [calls] in H.
  assert (Own : (d, n) = (dir, m) -> exists l, d = dir ++ rel l /\ good_name n /\ Forall good_name l).
  { intros E. injection E as -> ->. exists []. cbn. rewrite app_nil_r. auto. }
  destruct (list_eq_dec N.eq_dec m [46]); [destruct (calls recursive dir r); auto|].
  destruct (list_eq_dec N.eq_dec m [46; 46]); [destruct (calls recursive dir r); auto|].
  destruct nd as [e|mt' sz'| |mt' [e|t]].
  - destruct ((e =? 13) || (e =? 2)); [destruct (calls recursive dir r); auto|contradiction].
  - destruct (calls recursive dir r) as [l' e']. destruct H as [H|H]; [apply Own; congruence|auto].
  - destruct (calls recursive dir r); auto.
  - destruct (e =? 13); [destruct (calls recursive dir r); auto|contradiction].
  - assert (Hs : forall l e, (if recursive then calls recursive (dir ++ m ++ [47]) t else ([], None)) = (l, e) ->
                  In (d, n, mt, sz, b) l -> exists l, d = dir ++ rel l /\ good_name n /\ Forall good_name l).
    { intros l e E Hc. destruct recursive; [|injection E as <- <-; contradiction].
      destruct (IHn Gs (dir ++ m ++ [47]) d n mt sz b) as (q & -> & Hn & Hq); [rewrite E; exact Hc|].
      exists (m :: q). cbn [rel map concat]. rewrite <- !app_assoc. auto. }
    destruct (if recursive then _ else _) as [l [e|]].
    + destruct H as [H|H]; [apply Own; congruence|]. eapply Hs; eauto.
    + destruct (calls recursive dir r) as [l' e']. destruct H as [H|H]; [apply Own; congruence|].
      apply in_app_or in H. destruct H as [H|H]; [eapply Hs; eauto|auto].
Qed.

Lemma rel_join l n : good_name n -> join (rel l) n = rel l ++ n.
Proof.
  intros (Hn & _). destruct n as [|c n]; [contradiction|]. unfold join.
  assert (E : needs_sep (rel l) = false); [|now rewrite E].
  destruct l as [|x l] using rev_ind; [reflexivity|].
  unfold rel. rewrite map_app, concat_app. cbn [map concat]. rewrite app_nil_r, app_assoc.
  unfold needs_sep, last_char. rewrite rev_app_distr. reflexivity.
Qed.

Definition included (rules : list rule) (p : str) : bool :=
  match filter_is_match rules p with Ok true => true | _ => false end.
Definition files_of (base : str) (p : ptr) (rules : list rule) (l : list call) : list finfo :=
  flat_map (fun c => let '(d, n, mt, sz, b) := c in
                     let path := skipn (length base) d ++ n in
                     if (b : bool) then [] else if included rules path then [mk_finfo path mt sz kInvalidIndex p] else []) l.
Definition dirs_of (base : str) (p : ptr) (rules : list rule) (l : list call) : list dinfo :=
  flat_map (fun c => let '(d, n, mt, sz, b) := c in
                     let path := skipn (length base) d ++ n in
                     if (b : bool) then if included rules path then [mk_dinfo path kInvalidIndex p] else [] else []) l.

Lemma add_calls base p rules (S : safe_rules rules) L :
  (forall d n mt sz b, In (d, n, mt, sz, b) L -> exists l, d = base ++ rel l /\ good_name n /\ Forall good_name l) ->
  forall s, make_calls (add_handler base p rules) L s =
            Ok ((fst s ++ files_of base p rules L, snd s ++ dirs_of base p rules L), true).
Proof.
  induction L as [|((((d & n) & mt) & sz) & b) L IH]; intros H s.
  { cbn. rewrite !app_nil_r. now destruct s. }
  assert (IH' : forall s, make_calls (add_handler base p rules) L s =
            Ok ((fst s ++ files_of base p rules L, snd s ++ dirs_of base p rules L), true)).
  { apply IH. intros. eapply H. right. eassumption. }
  destruct (H d n mt sz b) as (l & -> & Gn & Gl); [now left|].
  cbn [make_calls files_of dirs_of flat_map]. fold (files_of base p rules L) (dirs_of base p rules L).
  unfold add_handler at 1. rewrite app_length.
  destruct (Nat.ltb_spec (length base + length (rel l)) (length base)) as [X|_]; [lia|].
  rewrite skipn_app, skipn_all, Nat.sub_diag. cbn [app skipn].
  rewrite rel_join by exact Gn.
  destruct (ProofPathFilter.filter_total rules (rel l ++ n)) as [m Em].
  { rewrite <- slashed_rel. apply slashed_nul. apply Forall_app. auto. }
  { exact S. }
  unfold included. rewrite Em. cbn [bind]. destruct m.
  - destruct b; cbn [bind fst snd app]; rewrite IH'; cbn [fst snd]; now rewrite <- app_assoc.
  - destruct b; cbn [bind fst snd app]; rewrite IH'; reflexivity.
Qed.

Lemma add_files_calls fs base q mt t p recursive rules s :
  one_slash base q -> fs q = Dir mt (Opened t) -> good_names t -> safe_rules rules ->
  add_files fs base p recursive rules s =
  let L := calls recursive base t in
  if match snd L with None => true | Some e => e =? 2 end
  then Ok (fst s ++ files_of base p rules (fst L), snd s ++ dirs_of base p rules (fst L)) else Fail.
Proof.
  intros O F G S. unfold add_files. rewrite (search_calls _ recursive fs base q mt t s O F G).
  rewrite (add_calls base p rules S).
  - cbn [bind]. destruct (calls recursive base t) as [L [e|]]; cbn [fst snd]; reflexivity.
  - intros d n mt' sz b H. eapply calls_shape; eauto.
Qed.

Lemma included_spec rules l : safe_rules rules -> Forall good_name l -> l <> [] ->
  (included rules (slashed l) = true <-> filter_spec rules (slashed l) true).
Proof.
  intros S F N. unfold included.
  pose proof (slashed_nul l F) as Z.
  destruct (ProofPathFilter.filter_total rules (slashed l)) as [m Em]; [exact Z|exact S|].
  assert (Ne : slashed l <> []).
  { destruct l as [|x l]; [contradiction|]. apply Forall_inv in F. destruct F as (F & _).
    cbn. destruct l; [exact F|]. destruct x; discriminate. }
  assert (FS : filter_spec rules (slashed l) m).
  { apply ProofPathFilter.filter_sound; [exact Z| |exact Em].
    eapply Forall_impl; [|exact S]. intros r [A _]. split; [exact A|]. intros (X & _). contradiction. }
  rewrite Em. destruct m; [tauto|]. split; [discriminate|]. intros H.
  exfalso. pose proof (ProofPathFilter.filter_spec_unique _ _ _ _ FS H). discriminate.
Qed.

Lemma files_of_spec base p recursive rules t : searchable t -> good_names t -> safe_rules rules ->
  forall f, In f (files_of base p rules (fst (calls recursive base t))) <->
  exists path mt sz, f = mk_finfo path mt sz kInvalidIndex p /\ file_of recursive rules t path mt sz.
Proof.
  intros S G R f. unfold files_of. rewrite in_flat_map. split.
  - intros (((((d & n) & mt) & sz) & b) & Hc & Hf). apply (calls_in recursive t S) in Hc.
    destruct Hc as (l & m & nd & Hp & Hc & Hr). pose proof (at_path_names _ _ _ G Hp) as [Fn Nn].
    destruct nd as [e|mt' sz'| |mt' [e|t']]; try discriminate Hc; injection Hc as <- <- <- <- <-; [|contradiction].
    rewrite skipn_app, skipn_all, Nat.sub_diag in Hf. cbn [app skipn] in Hf. rewrite <- slashed_rel in Hf.
    destruct (included rules (slashed (l ++ [m]))) eqn:Ei; [|contradiction]. destruct Hf as [<-|[]].
    exists (slashed (l ++ [m])), mt', sz'. split; [reflexivity|]. exists (l ++ [m]). split; [exact Hp|]. split; [reflexivity|].
    split; [|now apply included_spec].
    destruct Hr as [Hr| ->]; [now left|right; reflexivity].
  - intros (path & mt & sz & -> & l & Hp & -> & Hr & Hi).
    pose proof (at_path_names _ _ _ G Hp) as [Fn Nn]. destruct (exists_last Nn) as (l' & n & ->).
    exists (base ++ rel l', n, mt, sz, false). split.
    + apply (calls_in recursive t S). exists l', n, (Other mt sz). split; [exact Hp|]. split; [reflexivity|].
      destruct Hr as [Hr|Hr]; [now left|right]. rewrite app_length in Hr. cbn in Hr. destruct l'; [reflexivity|cbn in Hr; lia].
    + rewrite skipn_app, skipn_all, Nat.sub_diag. cbn [app skipn]. rewrite <- slashed_rel.
      apply included_spec in Hi; auto. rewrite Hi. now left.
Qed.

Lemma dirs_of_spec base p recursive rules t : searchable t -> good_names t -> safe_rules rules ->
  forall f, In f (dirs_of base p rules (fst (calls recursive base t))) <->
  exists path, f = mk_dinfo path kInvalidIndex p /\ dir_of recursive rules t path.
Proof.
  intros S G R f. unfold dirs_of. rewrite in_flat_map. split.
  - intros (((((d & n) & mt) & sz) & b) & Hc & Hf). apply (calls_in recursive t S) in Hc.
    destruct Hc as (l & m & nd & Hp & Hc & Hr). pose proof (at_path_names _ _ _ G Hp) as [Fn Nn].
    destruct nd as [e|mt' sz'| |mt' [e|t']]; try discriminate Hc; injection Hc as <- <- <- <- <-; [contradiction|].
    rewrite skipn_app, skipn_all, Nat.sub_diag in Hf. cbn [app skipn] in Hf. rewrite <- slashed_rel in Hf.
    destruct (included rules (slashed (l ++ [m]))) eqn:Ei; [|contradiction]. destruct Hf as [<-|[]].
    exists (slashed (l ++ [m])). split; [reflexivity|]. exists (l ++ [m]), mt', t'. split; [exact Hp|]. split; [reflexivity|].
    split; [|now apply included_spec].
    destruct Hr as [Hr| ->]; [now left|right; reflexivity].
  - intros (path & -> & l & mt & t' & Hp & -> & Hr & Hi).
    pose proof (at_path_names _ _ _ G Hp) as [Fn Nn]. destruct (exists_last Nn) as (l' & n & ->).
    exists (base ++ rel l', n, mt, 0, true). split.
    + apply (calls_in recursive t S). exists l', n, (Dir mt (Opened t')). split; [exact Hp|]. split; [reflexivity|].
      destruct Hr as [Hr|Hr]; [now left|right]. rewrite app_length in Hr. cbn in Hr. destruct l'; [reflexivity|cbn in Hr; lia].
    + rewrite skipn_app, skipn_all, Nat.sub_diag. cbn [app skipn]. rewrite <- slashed_rel.
      apply included_spec in Hi; auto. rewrite Hi. now left.
Qed.

Lemma of_nodup base p rules L :
  (forall d n mt sz b, In (d, n, mt, sz, b) L -> exists l, d = base ++ rel l /\ good_name n /\ Forall good_name l) ->
  NoDup (map target L) ->
  NoDup (map fi_path (files_of base p rules L) ++ map di_path (dirs_of base p rules L)).
Proof.
  induction L as [|((((d & n) & mt) & sz) & b) L IH]; intros H N; [constructor|].
  cbn [map] in N. inversion N as [|x l Nx N']; subst.
  assert (IH' : NoDup (map fi_path (files_of base p rules L) ++ map di_path (dirs_of base p rules L))).
  { apply IH; [|exact N']. intros. eapply H. right. eassumption. }
  destruct (H d n mt sz b) as (l & -> & Gn & Gl); [now left|].
  cbn [files_of dirs_of flat_map]. fold (files_of base p rules L) (dirs_of base p rules L).
  rewrite skipn_app, skipn_all, Nat.sub_diag. cbn [app skipn].
  assert (X : forall y, In y (map fi_path (files_of base p rules L) ++ map di_path (dirs_of base p rules L)) -> In (base ++ y) (map target L)).
  { intros y. rewrite in_app_iff. intros [Y|Y].
    - apply in_map_iff in Y. destruct Y as (f & <- & Y). unfold files_of in Y. apply in_flat_map in Y.
      destruct Y as (((((d' & n') & mt') & sz') & b') & Hc & Hf).
      destruct (H d' n' mt' sz' b') as (l' & -> & _); [now right|].
      rewrite skipn_app, skipn_all, Nat.sub_diag in Hf. cbn [app skipn] in Hf.
      destruct b'; [contradiction|]. destruct (included rules (rel l' ++ n')); [|contradiction].
      destruct Hf as [<-|[]]. cbn. apply in_map_iff. eexists. split; [|exact Hc]. cbn. now rewrite <- app_assoc.
    - apply in_map_iff in Y. destruct Y as (f & <- & Y). unfold dirs_of in Y. apply in_flat_map in Y.
      destruct Y as (((((d' & n') & mt') & sz') & b') & Hc & Hf).
      destruct (H d' n' mt' sz' b') as (l' & -> & _); [now right|].
      rewrite skipn_app, skipn_all, Nat.sub_diag in Hf. cbn [app skipn] in Hf.
      destruct b'; [|contradiction]. destruct (included rules (rel l' ++ n')); [|contradiction].
      destruct Hf as [<-|[]]. cbn. apply in_map_iff. eexists. split; [|exact Hc]. cbn. now rewrite <- app_assoc. }
  assert (Y : ~ In (rel l ++ n) (map fi_path (files_of base p rules L) ++ map di_path (dirs_of base p rules L))).
  { intros Y. apply X in Y. apply Nx. cbn. now rewrite <- app_assoc. }
  destruct b, (included rules (rel l ++ n)); cbn [app map]; auto.
  - apply (Permutation_NoDup (Permutation_middle _ _ _)). now constructor.
  - now constructor.
Qed.

(** ** Errors *)
Lemma calls_error recursive t : forall dir l n nd,
  at_path t (l ++ [n]) nd -> recursive = true \/ l = [] ->
  match nd with NoStat e => e <> 13 /\ e <> 2 | Dir _ (OpenErr e) => e <> 13 | _ => False end ->
  snd (calls recursive dir t) <> None.
Proof.
  induction t as [|m md r IHn IHr] using tree_ind2; intros dir l n nd Hp Hr Hb.
  { apply at_path_inv in Hp. destruct Hp as [(_ & He & _)|(x & l' & mt & t' & _ & He & _)]; inversion He. }
  cbn [calls].
  assert (Q : (exists l n nd, at_path r (l ++ [n]) nd /\ (recursive = true \/ l = []) /\
                match nd with NoStat e => e <> 13 /\ e <> 2 | Dir _ (OpenErr e) => e <> 13 | _ => False end) ->
              snd (calls recursive dir r) <> None).
  { intros (l1 & n1 & nd1 & H1 & H2 & H3). eapply IHr; eauto. }
  assert (W : forall (L : list call * option N), (snd L <> None \/ snd (calls recursive dir r) <> None) ->
     snd (let '(l, e) := L in match e with Some _ => (l, e) | None => let '(l', e') := calls recursive dir r in (l ++ l', e') end) <> None).
  { intros [L [e|]] [X|X]; cbn in *; try congruence. destruct (calls recursive dir r). exact X. }
  apply W. clear W.
  apply at_path_inv in Hp. destruct Hp as [(-> & He & Hd)|(x & l' & mt & t' & -> & He & Hd & Hl)].
  - apply entry_inv in He. destruct He as [(-> & ->)|He].
    + left. destruct (list_eq_dec N.eq_dec m [46]); [exfalso; apply Hd; now left|].
      destruct (list_eq_dec N.eq_dec m [46; 46]); [exfalso; apply Hd; now right|].
      destruct md as [e|mt sz| |mt [e|t]]; try contradiction.
      * destruct Hb as [B1 B2]. destruct (N.eqb_spec e 13); [contradiction|]. destruct (N.eqb_spec e 2); [contradiction|discriminate].
      * destruct (N.eqb_spec e 13); [contradiction|discriminate].
    + right. apply Q. exists [], n, nd. split; [now apply at_direct|]. auto.
  - apply entry_inv in He. destruct He as [(-> & <-)|He].
    + left. destruct (list_eq_dec N.eq_dec m [46]); [exfalso; apply Hd; now left|].
      destruct (list_eq_dec N.eq_dec m [46; 46]); [exfalso; apply Hd; now right|].
      destruct Hr as [->|Hr]; [|discriminate].
      specialize (IHn (dir ++ m ++ [47]) l' n nd Hl (or_introl eq_refl) Hb).
      destruct (calls true (dir ++ m ++ [47]) t'). exact IHn.
    + right. apply Q. exists (x :: l'), n, nd. split; [|auto]. cbn [app]. eapply at_below; eauto.
Qed.

Lemma calls_error_not recursive t e0 : e0 = 2 ->
  everywhere (fun _ nd => nd <> NoStat e0 /\ forall mt, nd <> Dir mt (OpenErr e0)) t ->
  forall dir, snd (calls recursive dir t) <> Some e0.
Proof.
  intros E0. induction t as [|m md r IHn IHr] using tree_ind2; intros E dir; [discriminate|].
  apply everywhere_inv in E. destruct E as ((E1 & E2) & Es & Er). specialize (IHr Er dir). cbn [calls].
  assert (W : forall (L : list call * option N), snd L <> Some e0 ->
     snd (let '(l, e) := L in match e with Some _ => (l, e) | None => let '(l', e') := calls recursive dir r in (l ++ l', e') end) <> Some e0).
  { intros [L [e|]] X; cbn in *; [exact X|]. destruct (calls recursive dir r). exact IHr. }
  apply W. destruct (list_eq_dec N.eq_dec m [46]); [discriminate|].
  destruct (list_eq_dec N.eq_dec m [46; 46]); [discriminate|].
  destruct md as [e|mt sz| |mt [e|t]]; try discriminate.
  - cbn. destruct ((e =? 13) || (e =? 2)); [discriminate|]. intros X. apply E1. congruence.
  - cbn. destruct (e =? 13); [discriminate|]. intros X. apply (E2 mt). congruence.
  - destruct recursive; [|discriminate]. specialize (IHn Es (dir ++ m ++ [47])).
    destruct (calls true (dir ++ m ++ [47]) t). exact IHn.
Qed.
