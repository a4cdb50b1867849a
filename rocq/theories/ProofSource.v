From Verif Require Import Base ListX Str ModelPath ModelSource SpecSource.
Local Open Scope N_scope.
Local Notation str := (list N).

Lemma wtree_ind2 (P : wtree -> Prop) : P WNil ->
  (forall n nd r, match nd with WDir _ t => P t | _ => True end -> P r -> P (WEntry n nd r)) ->
  forall t, P t.
Proof.
  intros H0 H1. fix IH 1. intros [|n nd r]; [exact H0|]. apply H1; [|apply IH].
  destruct nd as [mt sz|mt t]; [exact Logic.I|]. apply IH.
Qed.

Lemma regular_spec n : regular_name n = true <-> ~ dots n.
Proof.
  unfold regular_name, dots. destruct (seqb_spec n [46]), (seqb_spec n [46; 46]); cbn; intuition congruence.
Qed.

Lemma make_calls_app {A} (h : A -> str -> str -> Z -> N -> bool -> outcome (A * bool)) l1 l2 s :
  make_calls h (l1 ++ l2) s = do (s', ok) <- make_calls h l1 s; if (ok : bool) then make_calls h l2 s' else Ok (s', false).
Proof.
  revert s. induction l1 as [|((((d & n) & mt) & sz) & b) l1 IH]; intros s; cbn [make_calls app bind]; [reflexivity|].
  destruct (h s d n mt sz b) as [[s' [|]]| | |]; cbn [bind]; auto.
Qed.

(** The calls as a list. *)
Section Calls.
Variable matches : str -> str -> bool.
Variable recursive : bool.
Definition second (pat : str) : bool := negb (is_star pat) && has_star pat.
Definition inner (pat : str) (reset : bool) : str := if reset then [star] else pat.

Fixpoint calls1 (t : wtree) (dir pat : str) (reset : bool) : list call :=
  match t with
  | WNil => []
  | WEntry n nd r =>
      (if matches pat n then
         match nd with
         | WFile mt sz => [(dir, n, mt, sz, false)]
         | WDir mt _ => if regular_name n then (dir, n, mt, 0, true) :: csub nd (dir ++ n ++ [92]) (inner pat reset) else []
         end
       else []) ++ calls1 r dir pat reset
  end
with calls2 (t : wtree) (dir pat : str) (reset : bool) : list call :=
  match t with
  | WNil => []
  | WEntry n nd r =>
      match nd with
      | WDir _ _ => if regular_name n then csub nd (dir ++ n ++ [92]) (inner pat reset) else []
      | WFile _ _ => []
      end ++ calls2 r dir pat reset
  end
with csub (nd : wnode) (dir pat : str) : list call :=
  match nd with
  | WFile _ _ => []
  | WDir _ t => if recursive then calls1 t dir pat false ++ (if second pat then calls2 t dir pat false else []) else []
  end.

Lemma calls1_cons n nd r dir pat reset : calls1 (WEntry n nd r) dir pat reset =
  (if matches pat n then
     match nd with
     | WFile mt sz => [(dir, n, mt, sz, false)]
     | WDir mt _ => if regular_name n then (dir, n, mt, 0, true) :: csub nd (dir ++ n ++ [92]) (inner pat reset) else []
     end
   else []) ++ calls1 r dir pat reset.
Proof. reflexivity. Qed.
Lemma calls2_cons n nd r dir pat reset : calls2 (WEntry n nd r) dir pat reset =
  match nd with
  | WDir _ _ => if regular_name n then csub nd (dir ++ n ++ [92]) (inner pat reset) else []
  | WFile _ _ => []
  end ++ calls2 r dir pat reset.
Proof. reflexivity. Qed.
Lemma csub_dir mt t dir pat : csub (WDir mt t) dir pat =
  if recursive then calls1 t dir pat false ++ (if second pat then calls2 t dir pat false else []) else [].
Proof. reflexivity. Qed.

Section Handler.
Context {A : Type}.
Variable h : A -> str -> str -> Z -> N -> bool -> outcome (A * bool).
Lemma pass1_cons n nd r dir pat reset s : pass1 h matches recursive (WEntry n nd r) dir pat reset s =
  (if matches pat n then
        match nd with
        | WFile mt sz =>
            do (s', ok) <- h s dir n mt sz false;
            if (ok : bool) then pass1 h matches recursive r dir pat reset s' else Ok (s', false)
        | WDir mt _ =>
            if regular_name n then
              do (s', ok) <- h s dir n mt 0 true;
              if (ok : bool) then
                do (s'', ok') <- sub h matches recursive nd (dir ++ n ++ [backslash]) (if reset then [star] else pat) s';
                if (ok' : bool) then pass1 h matches recursive r dir pat reset s'' else Ok (s'', false)
              else Ok (s', false)
            else pass1 h matches recursive r dir pat reset s
        end
      else pass1 h matches recursive r dir pat reset s).
Proof. reflexivity. Qed.
Lemma pass2_cons n nd r dir pat reset s : pass2 h matches recursive (WEntry n nd r) dir pat reset s =
      match nd with
      | WDir _ _ =>
          if regular_name n then
            do (s', ok) <- sub h matches recursive nd (dir ++ n ++ [backslash]) (if reset then [star] else pat) s;
            if (ok : bool) then pass2 h matches recursive r dir pat reset s' else Ok (s', false)
          else pass2 h matches recursive r dir pat reset s
      | WFile _ _ => pass2 h matches recursive r dir pat reset s
      end.
Proof. reflexivity. Qed.
Lemma sub_dir_eq mt t dir pat s : sub h matches recursive (WDir mt t) dir pat s =
      if recursive then
        do (s', ok) <- pass1 h matches recursive t dir pat false s;
        if (ok : bool) then
          if negb (is_star pat) && has_star pat then pass2 h matches recursive t dir pat false s' else Ok (s', true)
        else Ok (s', false)
      else Ok (s, true).
Proof. reflexivity. Qed.

Lemma passes_calls t : forall dir pat reset s,
  pass1 h matches recursive t dir pat reset s = make_calls h (calls1 t dir pat reset) s /\
  pass2 h matches recursive t dir pat reset s = make_calls h (calls2 t dir pat reset) s.
Proof.
  induction t as [|n nd r IHn IHr] using wtree_ind2; intros dir pat reset s; [split; reflexivity|].
  assert (R1 : forall s, pass1 h matches recursive r dir pat reset s = make_calls h (calls1 r dir pat reset) s) by (intros; apply IHr).
  assert (R2 : forall s, pass2 h matches recursive r dir pat reset s = make_calls h (calls2 r dir pat reset) s) by (intros; apply IHr).
  assert (Su : forall dir pat s, sub h matches recursive nd dir pat s = make_calls h (csub nd dir pat) s).
  { intros dir' pat' s'. destruct nd as [mt sz|mt t]; [reflexivity|]. rewrite sub_dir_eq, csub_dir.
    destruct recursive; [|reflexivity]. rewrite (proj1 (IHn dir' pat' false s')), make_calls_app.
    destruct (make_calls h (calls1 t dir' pat' false) s') as [[s'' [|]]| | |]; cbn [bind]; try reflexivity.
    unfold second. destruct (negb (is_star pat') && has_star pat'); [apply IHn|reflexivity]. }
  split.
  - rewrite pass1_cons, calls1_cons.
    destruct (matches pat n); [|apply R1]. destruct nd as [mt sz|mt t].
    + cbn [app make_calls]. destruct (h s dir n mt sz false) as [[s' [|]]| | |]; cbn [bind]; auto.
    + destruct (regular_name n); [|apply R1]. cbn [app make_calls].
      destruct (h s dir n mt 0 true) as [[s' [|]]| | |]; cbn [bind]; try reflexivity.
      rewrite Su, make_calls_app. fold (inner pat reset). change [backslash] with [92].
      destruct (make_calls h (csub (WDir mt t) (dir ++ n ++ [92]) (inner pat reset)) s') as [[s'' [|]]| | |]; cbn [bind]; auto.
  - rewrite pass2_cons, calls2_cons.
    destruct nd as [mt sz|mt t]; [apply R2|]. destruct (regular_name n); [|apply R2].
    rewrite Su, make_calls_app. fold (inner pat reset). change [backslash] with [92].
    destruct (make_calls h (csub (WDir mt t) (dir ++ n ++ [92]) (inner pat reset)) s) as [[s'' [|]]| | |]; cbn [bind]; auto.
Qed.

Definition wcalls (t : wtree) (dir pat : str) (reset : bool) : list call :=
  if negb recursive && match pat with [] => true | _ => false end then []
  else calls1 t dir pat reset ++ (if recursive && second pat then calls2 t dir pat reset else []).

Lemma search_win_calls t dir pat reset s :
  search_win h matches recursive t dir pat reset s = make_calls h (wcalls t dir pat reset) s.
Proof.
  unfold search_win, wcalls. destruct (negb recursive && _); [reflexivity|].
  rewrite (proj1 (passes_calls t dir pat reset s)), make_calls_app.
  destruct (make_calls h (calls1 t dir pat reset) s) as [[s'' [|]]| | |]; cbn [bind]; try reflexivity.
  unfold second. destruct (recursive && (negb (is_star pat) && has_star pat)); [apply passes_calls|reflexivity].
Qed.
End Handler.

(** ** Paths *)
Definition rel (l : list str) : str := concat (map (fun x => x ++ [92]) l).
Lemma call_of_eq dir l n nd : call_of dir l n nd =
  match nd with WFile mt sz => (dir ++ rel l, n, mt, sz, false) | WDir mt _ => (dir ++ rel l, n, mt, 0, true) end.
Proof. destruct nd; reflexivity. Qed.
Lemma call_of_cons dir x l n nd : call_of dir (x :: l) n nd = call_of (dir ++ x ++ [92]) l n nd.
Proof. rewrite !call_of_eq. cbn [rel map concat]. rewrite <- !app_assoc. reflexivity. Qed.

Lemma wentry_inv n nd r m md : wentry (WEntry n nd r) m md -> (m = n /\ md = nd) \/ wentry r m md.
Proof. intros H. inversion H; subst; auto. Qed.
Lemma below_inv t l n nd : below t (l ++ [n]) nd ->
  (l = [] /\ wentry t n nd /\ ~ dots n) \/
  (exists x l' mt t', l = x :: l' /\ wentry t x (WDir mt t') /\ ~ dots x /\ below t' (l' ++ [n]) nd).
Proof.
  destruct l as [|x l]; cbn [app]; intros H; inversion H as [t0 m0 md0 He Hd|t0 m0 mt t' l' md0 He Hd Hl]; subst.
  - auto.
  - inversion Hl.
  - destruct l; discriminate.
  - right. exists x, l, mt, t'. auto.
Qed.
Lemma below_rest m md r l n nd : below r (l ++ [n]) nd -> below (WEntry m md r) (l ++ [n]) nd.
Proof.
  intros H. apply below_inv in H. destruct H as [(-> & He & Hd)|(x & l' & mt & t' & -> & He & Hd & Hl)].
  - apply below_direct; [now constructor|exact Hd].
  - cbn [app]. eapply below_deep; [constructor; exact He|exact Hd|exact Hl].
Qed.
Lemma below_here m md r n l nd : below (WEntry m md r) (l ++ [n]) nd <->
  (l = [] /\ n = m /\ nd = md /\ ~ dots m) \/
  (exists l' mt t', l = m :: l' /\ md = WDir mt t' /\ ~ dots m /\ below t' (l' ++ [n]) nd) \/
  below r (l ++ [n]) nd.
Proof.
  split.
  - intros H. apply below_inv in H. destruct H as [(-> & He & Hd)|(x & l' & mt & t' & -> & He & Hd & Hl)].
    + apply wentry_inv in He. destruct He as [(-> & ->)|He]; [auto|]. right. right. now apply below_direct.
    + apply wentry_inv in He. destruct He as [(-> & E)|He].
      * right. left. exists l', mt, t'. auto.
      * right. right. cbn [app]. eapply below_deep; eauto.
  - intros [(-> & -> & -> & Hd)|[(l' & mt & t' & -> & -> & Hd & Hl)|H]].
    + apply below_direct; [constructor|exact Hd].
    + cbn [app]. eapply below_deep; [constructor|exact Hd|exact Hl].
    + now apply below_rest.
Qed.

Definition dots_ok : wtree -> Prop := weverywhere (fun n nd => dots n -> exists mt t, nd = WDir mt t).

(** Without a second pass: every name on the path has to match. *)
Definition path_matches (pat pat' : str) (l : list str) : Prop :=
  match l with [] => True | x :: r => matches pat x = true /\ Forall (fun y => matches pat' y = true) r end.

Lemma calls1_in t : dots_ok t -> forall dir pat reset, recursive && second (inner pat reset) = false -> forall c,
  In c (calls1 t dir pat reset) <->
  exists l n nd, below t (l ++ [n]) nd /\ c = call_of dir l n nd /\
    path_matches pat (inner pat reset) (l ++ [n]) /\ (recursive = true \/ l = []).
Proof.
  induction t as [|m md r IHn IHr] using wtree_ind2; intros D dir pat reset Hs c.
  { cbn. split; [tauto|]. intros (l & n & nd & H & _). apply below_inv in H.
    destruct H as [(_ & He & _)|(x & l' & mt & t' & _ & He & _)]; inversion He. }
  destruct D as (Dm & Dn & Dr). rewrite calls1_cons, in_app_iff, (IHr Dr dir pat reset Hs c). clear IHr.
  split.
  - intros [H|(l & n & nd & H & R)]; [|exists l, n, nd; split; [now apply below_rest|exact R]].
    destruct (matches pat m) eqn:Em; [|contradiction].
    destruct md as [mt sz|mt t].
    + destruct H as [<-|[]]. exists [], m, (WFile mt sz).
      assert (Nd : ~ dots m) by (intros X; destruct (Dm X) as (? & ? & E); discriminate).
      split; [apply below_direct; [constructor|exact Nd]|].
      split; [now rewrite call_of_eq; cbn; rewrite app_nil_r|]. split; [split; [exact Em|constructor]|now right].
    + destruct (regular_name m) eqn:Er; [|contradiction]. apply regular_spec in Er.
      destruct H as [<-|H].
      * exists [], m, (WDir mt t). split; [apply below_direct; [constructor|exact Er]|].
        split; [now rewrite call_of_eq; cbn; rewrite app_nil_r|]. split; [split; [exact Em|constructor]|now right].
      * rewrite csub_dir in H. destruct recursive eqn:Erec; [|contradiction]. cbn [andb] in *. rewrite Hs, app_nil_r in H.
        apply (IHn Dn (dir ++ m ++ [92]) (inner pat reset) false) in H; [|exact Hs].
        destruct H as (l & n & nd & H & -> & Hm & _).
        exists (m :: l), n, nd. split; [cbn [app]; eapply below_deep; [constructor|exact Er|exact H]|].
        split; [now rewrite call_of_cons|]. split; [|now left]. cbn [app path_matches]. split; [exact Em|].
        destruct (l ++ [n]); [constructor|]. destruct Hm as [Hm1 Hm2]. now constructor.
  - intros (l & n & nd & H & -> & Hm & Hr). apply below_here in H.
    destruct H as [(-> & -> & -> & Hd)|[(l' & mt & t' & -> & -> & Hd & Hl)|H]].
    + left. destruct Hm as [Hm _]. rewrite Hm. rewrite call_of_eq. cbn [rel map concat]. rewrite app_nil_r.
      destruct md as [mt sz|mt t]; [now left|]. apply regular_spec in Hd. rewrite Hd. now left.
    + left. destruct Hr as [Hr|Hr]; [|discriminate]. cbn [app path_matches] in Hm. destruct Hm as [Hm1 Hm2]. rewrite Hm1.
      apply regular_spec in Hd. rewrite Hd. right. assert (Hs2 : second (inner pat reset) = false) by (rewrite Hr in Hs; exact Hs). rewrite csub_dir, Hr, Hs2, app_nil_r.
      apply (IHn Dn (dir ++ m ++ [92]) (inner pat reset) false); [exact Hs|].
      exists l', n, nd. split; [exact Hl|]. split; [now rewrite call_of_cons|]. split; [|now left].
      destruct (l' ++ [n]); [exact Logic.I|]. split; [now apply Forall_inv in Hm2|now apply Forall_inv_tail in Hm2].
    + right. exists l, n, nd. auto.
Qed.

(** With a second pass: the last name has to match. *)
Lemma calls_pattern_in t : dots_ok t -> recursive = true -> forall dir pat, second pat = true -> forall c,
  (In c (calls1 t dir pat false) -> exists l n nd, below t (l ++ [n]) nd /\ c = call_of dir l n nd /\ matches pat n = true) /\
  (In c (calls2 t dir pat false) -> exists l n nd, below t (l ++ [n]) nd /\ c = call_of dir l n nd /\ matches pat n = true) /\
  (forall l n nd, below t (l ++ [n]) nd -> c = call_of dir l n nd -> matches pat n = true ->
     In c (calls1 t dir pat false) \/ In c (calls2 t dir pat false)).
Proof.
  induction t as [|m md r IHn IHr] using wtree_ind2; intros D Hr dir pat Hs c.
  { cbn. split; [tauto|]. split; [tauto|]. intros l n nd H. apply below_inv in H.
    destruct H as [(_ & He & _)|(x & l' & mt & t' & _ & He & _)]; inversion He. }
  destruct D as (Dm & Dn & Dr). specialize (IHr Dr Hr dir pat Hs c). destruct IHr as (I1 & I2 & I3).
  assert (Sub : forall mt t, md = WDir mt t -> ~ dots m -> In c (csub md (dir ++ m ++ [92]) pat) ->
     exists l n nd, below (WEntry m md r) (l ++ [n]) nd /\ c = call_of dir l n nd /\ matches pat n = true).
  { intros mt t -> Nd H. rewrite csub_dir, Hr, Hs in H. destruct (IHn Dn Hr (dir ++ m ++ [92]) pat Hs c) as (J1 & J2 & _).
    apply in_app_or in H. assert (J : exists l n nd, below t (l ++ [n]) nd /\ c = call_of (dir ++ m ++ [92]) l n nd /\ matches pat n = true) by tauto.
    destruct J as (l & n & nd & Hb & -> & Hm). exists (m :: l), n, nd. split; [cbn [app]; eapply below_deep; [constructor|exact Nd|exact Hb]|].
    split; [now rewrite call_of_cons|exact Hm]. }
  assert (Rest : (exists l n nd, below r (l ++ [n]) nd /\ c = call_of dir l n nd /\ matches pat n = true) ->
     exists l n nd, below (WEntry m md r) (l ++ [n]) nd /\ c = call_of dir l n nd /\ matches pat n = true).
  { intros (l & n & nd & H & R). exists l, n, nd. split; [now apply below_rest|exact R]. }
  rewrite calls1_cons, calls2_cons. cbn [inner]. split; [|split].
  - intros H. apply in_app_or in H. destruct H as [H|H]; [|auto]. destruct (matches pat m) eqn:Em; [|contradiction].
    destruct md as [mt sz|mt t].
    + destruct H as [<-|[]]. exists [], m, (WFile mt sz).
      assert (Nd : ~ dots m) by (intros X; destruct (Dm X) as (? & ? & E); discriminate).
      split; [apply below_direct; [constructor|exact Nd]|].
      split; [now rewrite call_of_eq; cbn; rewrite app_nil_r|]. exact Em.
    + destruct (regular_name m) eqn:Er; [|contradiction]. apply regular_spec in Er.
      destruct H as [<-|H]; [|eapply Sub; eauto].
      exists [], m, (WDir mt t). split; [apply below_direct; [constructor|exact Er]|].
      split; [now rewrite call_of_eq; cbn; rewrite app_nil_r|]. exact Em.
  - intros H. apply in_app_or in H. destruct H as [H|H]; [|auto]. destruct md as [mt sz|mt t]; [contradiction|].
    destruct (regular_name m) eqn:Er; [|contradiction]. apply regular_spec in Er. eapply Sub; eauto.
  - intros l n nd H Hc Hm. apply below_here in H.
    destruct H as [(-> & -> & -> & Hd)|[(l' & mt & t' & -> & -> & Hd & Hl)|H]].
    + left. apply in_or_app. left. rewrite Hm, Hc, call_of_eq. cbn [rel map concat]. rewrite app_nil_r.
      destruct md as [mt sz|mt t]; [now left|]. apply regular_spec in Hd. rewrite Hd. now left.
    + right. apply in_or_app. left. apply regular_spec in Hd. rewrite Hd, csub_dir, Hr, Hs. apply in_or_app.
      destruct (IHn Dn Hr (dir ++ m ++ [92]) pat Hs c) as (_ & _ & J). rewrite call_of_cons in Hc. eapply J; eauto.
    + destruct (I3 l n nd H Hc Hm) as [X|X]; [left|right]; apply in_or_app; now right.
Qed.

(** ** Every call is for something below the directory *)
Lemma calls_below t : dots_ok t -> forall dir pat reset c,
  In c (calls1 t dir pat reset) \/ In c (calls2 t dir pat reset) ->
  exists l n nd, below t (l ++ [n]) nd /\ c = call_of dir l n nd.
Proof.
  induction t as [|m md r IHn IHr] using wtree_ind2; intros D dir pat reset c H.
  { destruct H as [H|H]; contradiction. }
  destruct D as (Dm & Dn & Dr). specialize (IHr Dr dir pat reset c).
  assert (Sub : forall mt t, md = WDir mt t -> ~ dots m -> In c (csub md (dir ++ m ++ [92]) (inner pat reset)) ->
     exists l n nd, below (WEntry m md r) (l ++ [n]) nd /\ c = call_of dir l n nd).
  { intros mt t -> Nd Hc. rewrite csub_dir in Hc. destruct recursive; [|contradiction].
    assert (J : exists l n nd, below t (l ++ [n]) nd /\ c = call_of (dir ++ m ++ [92]) l n nd).
    { apply (IHn Dn _ (inner pat reset) false). apply in_app_or in Hc. destruct (second (inner pat reset)); [tauto|]. destruct Hc as [Hc|[]]. tauto. }
    destruct J as (l & n & nd & Hb & ->). exists (m :: l), n, nd. split; [cbn [app]; eapply below_deep; [constructor|exact Nd|exact Hb]|].
    now rewrite call_of_cons. }
  assert (Rest : (exists l n nd, below r (l ++ [n]) nd /\ c = call_of dir l n nd) ->
     exists l n nd, below (WEntry m md r) (l ++ [n]) nd /\ c = call_of dir l n nd).
  { intros (l & n & nd & Hb & E). exists l, n, nd. split; [now apply below_rest|exact E]. }
  rewrite calls1_cons, calls2_cons in H. destruct H as [H|H]; apply in_app_or in H; destruct H as [H|H]; auto.
  - destruct (matches pat m); [|contradiction]. destruct md as [mt sz|mt t].
    + destruct H as [<-|[]]. exists [], m, (WFile mt sz).
      assert (Nd : ~ dots m) by (intros X; destruct (Dm X) as (? & ? & E); discriminate).
      split; [apply below_direct; [constructor|exact Nd]|]. now rewrite call_of_eq; cbn; rewrite app_nil_r.
    + destruct (regular_name m) eqn:Er; [|contradiction]. apply regular_spec in Er.
      destruct H as [<-|H]; [|eapply Sub; eauto].
      exists [], m, (WDir mt t). split; [apply below_direct; [constructor|exact Er]|].
      now rewrite call_of_eq; cbn; rewrite app_nil_r.
  - destruct md as [mt sz|mt t]; [contradiction|].
    destruct (regular_name m) eqn:Er; [|contradiction]. apply regular_spec in Er. eapply Sub; eauto.
Qed.

(** ** No call twice *)
Definition target (c : call) : str := let '(d, n, _, _, _) := c in d ++ n.
Lemma once_eq l : once l = NoDup (map target l).
Proof. reflexivity. Qed.

Definition tagged (dir : str) (P : str -> Prop) (l : list call) : Prop :=
  forall c, In c l -> exists x q, P x /\ target c = dir ++ x ++ q /\ (q = [] \/ exists q', q = 92 :: q').

Lemma wentry_names t n nd : wentry t n nd -> In n (wnames t).
Proof. induction 1; cbn; auto. Qed.
Lemma target_call dir l n nd : target (call_of dir l n nd) = dir ++ rel l ++ n.
Proof. rewrite call_of_eq. destruct nd; cbn; now rewrite <- app_assoc. Qed.

Lemma calls_tagged t dir pat reset : dots_ok t ->
  tagged dir (fun x => In x (wnames t)) (calls1 t dir pat reset) /\ tagged dir (fun x => In x (wnames t)) (calls2 t dir pat reset).
Proof.
  intros D.
  assert (G : forall c, In c (calls1 t dir pat reset) \/ In c (calls2 t dir pat reset) ->
    exists x q, In x (wnames t) /\ target c = dir ++ x ++ q /\ (q = [] \/ exists q', q = 92 :: q')).
  { intros c H. apply (calls_below t D) in H. destruct H as (l & n & nd & Hb & ->). rewrite target_call.
    apply below_inv in Hb. destruct Hb as [(-> & He & _)|(x & l' & mt & t' & -> & He & _ & _)].
    - exists n, []. cbn. rewrite app_nil_r. split; [eapply wentry_names; eauto|auto].
    - exists x, (92 :: rel l' ++ n). split; [eapply wentry_names; eauto|]. split; [|right; eauto].
      cbn [rel map concat]. rewrite <- !app_assoc. reflexivity. }
  split; intros c H; apply G; auto.
Qed.

Lemma nodup_app {B} (l1 l2 : list B) : NoDup l1 -> NoDup l2 -> (forall x, In x l1 -> ~ In x l2) -> NoDup (l1 ++ l2).
Proof.
  intros H1 H2 D. induction H1 as [|x l1 Hx H1 IH]; [exact H2|]. cbn. constructor.
  - rewrite in_app_iff. intros [X|X]; [contradiction|]. apply (D x); [now left|exact X].
  - apply IH. intros y Hy. apply D. now right.
Qed.
Lemma split_bs (a b c d : str) : ~ In 92 a -> ~ In 92 c -> a ++ 92 :: b = c ++ 92 :: d -> a = c.
Proof.
  revert c. induction a as [|x a IH]; intros [|y c] Ha Hc E; cbn in E; auto.
  - injection E as <- _. exfalso. apply Hc. now left.
  - injection E as -> _. exfalso. apply Ha. now left.
  - injection E as <- E. f_equal. apply IH; auto; intros X; [apply Ha|apply Hc]; now right.
Qed.
Lemma nodup_entry dir m (P : str -> Prop) l1 l2 : ~ In 92 m -> (forall x, P x -> ~ In 92 x) -> ~ P m ->
  tagged dir (eq m) l1 -> tagged dir P l2 -> NoDup (map target l1) -> NoDup (map target l2) ->
  NoDup (map target (l1 ++ l2)).
Proof.
  intros Hm HP Nm T1 T2 N1 N2. rewrite map_app. apply nodup_app; auto.
  intros y Y1 Y2. apply in_map_iff in Y1, Y2. destruct Y1 as (c1 & <- & C1), Y2 as (c2 & E & C2).
  apply T1 in C1. apply T2 in C2. destruct C1 as (x1 & q1 & <- & E1 & Q1), C2 as (x2 & q2 & P2 & E2 & Q2).
  rewrite E1, E2 in E. apply app_inv_head in E. apply HP in P2 as H2.
  assert (x2 = m); [|subst; contradiction].
  destruct Q1 as [->|[q1' ->]], Q2 as [->|[q2' ->]]; rewrite ?app_nil_r in E; auto.
  - exfalso. apply Hm. rewrite <- E. apply in_or_app. right. now left.
  - exfalso. apply H2. rewrite E. apply in_or_app. right. now left.
  - eapply split_bs; eauto.
Qed.

Lemma wgood_dots t : wgood_names t -> dots_ok t.
Proof.
  induction t as [|m md r IHn IHr] using wtree_ind2; intros G; [exact Logic.I|]. destruct G as ((_ & _ & _ & G1) & G2 & G3).
  split; [exact G1|]. split; [destruct md; [exact Logic.I|apply IHn; exact G2]|apply IHr; exact G3].
Qed.
Lemma wgood_in t x : wgood_names t -> In x (wnames t) -> ~ In 92 x.
Proof.
  induction t as [|m md r _ IHr] using wtree_ind2; intros G H; [contradiction|]. destruct G as ((_ & _ & G & _) & _ & Gr).
  destruct H as [<-|H]; auto.
Qed.

Lemma sub_tagged mt t dir m pat : dots_ok t -> tagged dir (eq m) (csub (WDir mt t) (dir ++ m ++ [92]) pat).
Proof.
  intros D c H. rewrite csub_dir in H. destruct recursive; [|contradiction].
  assert (J : exists l n nd, below t (l ++ [n]) nd /\ c = call_of (dir ++ m ++ [92]) l n nd).
  { apply (calls_below t D _ pat false). apply in_app_or in H. destruct (second pat); [tauto|]. destruct H as [H|[]]. tauto. }
  destruct J as (l & n & nd & _ & ->). exists m, (92 :: rel l ++ n). split; [reflexivity|]. rewrite target_call.
  rewrite <- !app_assoc. split; [reflexivity|right; eauto].
Qed.
Lemma head_not_in mt t dir m pat : dots_ok t -> ~ In (dir ++ m) (map target (csub (WDir mt t) (dir ++ m ++ [92]) pat)).
Proof.
  intros D H. apply in_map_iff in H. destruct H as (c & E & H). rewrite csub_dir in H. destruct recursive; [|contradiction].
  assert (J : exists l n nd, below t (l ++ [n]) nd /\ c = call_of (dir ++ m ++ [92]) l n nd).
  { apply (calls_below t D _ pat false). apply in_app_or in H. destruct (second pat); [tauto|]. destruct H as [H|[]]. tauto. }
  destruct J as (l & n & nd & _ & ->). rewrite target_call, <- !app_assoc in E. apply app_inv_head in E.
  assert (X : length (m ++ [92] ++ rel l ++ n) = length m) by now rewrite E. rewrite !app_length in X. cbn in X. lia.
Qed.

Lemma calls1_once t : wgood_names t -> wdistinct t -> forall dir pat reset, recursive && second (inner pat reset) = false ->
  NoDup (map target (calls1 t dir pat reset)).
Proof.
  induction t as [|m md r IHn IHr] using wtree_ind2; intros G D dir pat reset Hs; [constructor|].
  destruct G as (Gm & Gn & Gr), D as (Dm & Dn & Dr). rewrite calls1_cons.
  destruct Gm as (G1 & G2 & G3 & G4).
  assert (Own : tagged dir (eq m) (if matches pat m then
     match md with
     | WFile mt sz => [(dir, m, mt, sz, false)]
     | WDir mt _ => if regular_name m then (dir, m, mt, 0, true) :: csub md (dir ++ m ++ [92]) (inner pat reset) else []
     end else [])).
  { intros c H. destruct (matches pat m); [|contradiction]. 
    assert (E : target c = dir ++ m -> exists x q, m = x /\ target c = dir ++ x ++ q /\ (q = [] \/ exists q', q = 92 :: q')).
    { intros ->. exists m, []. rewrite app_nil_r. auto. }
    destruct md as [mt sz|mt t].
    - destruct H as [<-|[]]. now apply E.
    - destruct (regular_name m); [|contradiction]. destruct H as [<-|H]; [now apply E|].
      eapply sub_tagged; [apply wgood_dots, Gn|exact H]. }
  apply (nodup_entry dir m (fun x => In x (wnames r))); auto.
  - intros x Hx. eapply wgood_in; eauto.
  - apply calls_tagged. now apply wgood_dots.
  - destruct (matches pat m); [|constructor]. destruct md as [mt sz|mt t].
    + cbn. constructor; [auto|constructor].
    + destruct (regular_name m); [|constructor]. cbn [map]. constructor.
      * apply head_not_in. now apply wgood_dots.
      * rewrite csub_dir. destruct recursive; [|constructor]. cbn [andb] in Hs. rewrite Hs, app_nil_r.
        apply (IHn Gn Dn). exact Hs.
Qed.

Lemma pattern_once t : wgood_names t -> wdistinct t -> recursive = true -> forall pat, second pat = true ->
  weverywhere (fun n nd => match nd with WDir _ _ => dots n \/ matches pat n = false | _ => True end) t ->
  forall dir, NoDup (map target (calls1 t dir pat false ++ calls2 t dir pat false)).
Proof.
  induction t as [|m md r IHn IHr] using wtree_ind2; intros G D Hr pat Hs Hd dir; [constructor|].
  destruct G as (Gm & Gn & Gr), D as (Dm & Dn & Dr), Hd as (Hm & Hn & Hr'). rewrite calls1_cons, calls2_cons. cbn [inner].
  destruct Gm as (G1 & G2 & G3 & G4).
  set (own := if matches pat m then _ else []).
  set (sb := match md with WFile _ _ => [] | WDir _ _ => _ end).
  assert (Own : tagged dir (eq m) (own ++ sb)).
  { intros c H. assert (E : target c = dir ++ m -> exists x q, m = x /\ target c = dir ++ x ++ q /\ (q = [] \/ exists q', q = 92 :: q')).
    { intros ->. exists m, []. rewrite app_nil_r. auto. }
    apply in_app_or in H. destruct H as [H|H].
    - unfold own in H. destruct (matches pat m); [|contradiction]. destruct md as [mt sz|mt t].
      + destruct H as [<-|[]]. now apply E.
      + destruct (regular_name m); [|contradiction]. destruct H as [<-|H]; [now apply E|].
        eapply sub_tagged; [apply wgood_dots, Gn|exact H].
    - unfold sb in H. destruct md as [mt sz|mt t]; [contradiction|]. destruct (regular_name m); [|contradiction].
      eapply sub_tagged; [apply wgood_dots, Gn|exact H]. }
  assert (Perm : Permutation ((own ++ sb) ++ (calls1 r dir pat false ++ calls2 r dir pat false))
                             ((own ++ calls1 r dir pat false) ++ (sb ++ calls2 r dir pat false))).
  { rewrite <- !app_assoc. apply Permutation_app_head. rewrite !app_assoc. apply Permutation_app_tail. apply Permutation_app_comm. }
  eapply Permutation_NoDup; [apply Permutation_map, Perm|].
  apply (nodup_entry dir m (fun x => In x (wnames r))); auto.
  - intros x Hx. eapply wgood_in; eauto.
  - intros c H. apply in_app_or in H. destruct (calls_tagged r dir pat false (wgood_dots _ Gr)) as [T1 T2]. destruct H; auto.
  - unfold own, sb. destruct md as [mt sz|mt t].
    + rewrite app_nil_r. destruct (matches pat m); [|constructor]. cbn. constructor; [auto|constructor].
    + destruct (regular_name m) eqn:Er.
      * apply regular_spec in Er. destruct Hm as [Hm|Hm]; [contradiction|]. rewrite Hm. cbn [app].
        rewrite csub_dir, Hr, Hs. apply IHn; auto.
      * destruct (matches pat m); constructor.
Qed.
End Calls.

(** ** Strings *)
From Verif Require ProofPath.

Lemma bs_false n : ~ In 92 n -> Forall (fun b => N.eqb 92 b = false) n.
Proof. intros H. apply Forall_forall. intros x Hx. apply N.eqb_neq. intros <-. contradiction. Qed.
Lemma up_to_spec p d n : dir_and_name p d n -> up_to_backslash p = d /\ skipn (length d) p = n.
Proof.
  intros (-> & Hn & Hd). unfold up_to_backslash, backslash. split.
  - destruct Hd as [->|[d' ->]].
    + cbn [app]. now rewrite ProofPath.find_last_none by (apply bs_false; exact Hn).
    + rewrite <- app_assoc. cbn [app]. rewrite ProofPath.find_last_app_r; [|reflexivity|apply bs_false; exact Hn].
      change (@length byte) with (@length N).
      replace (d' ++ 92 :: n) with ((d' ++ [92]) ++ n) by now rewrite <- app_assoc.
      rewrite firstn_app. replace (S (length d') - length (d' ++ [92%N]))%nat with 0%nat by (rewrite app_length; cbn [length]; lia).
      rewrite firstn_all2 by (rewrite app_length; cbn [length]; lia). cbn. now rewrite app_nil_r.
  - rewrite skipn_app, skipn_all, Nat.sub_diag. reflexivity.
Qed.
Lemma dir_and_name_exists p : exists d n, dir_and_name p d n.
Proof.
  induction p as [|x p (d & n & E & Hn & Hd)] using rev_ind.
  - exists [], []. split; [reflexivity|]. split; [auto|now left].
  - destruct (N.eq_dec x 92) as [->|Hx].
    + exists (p ++ [92]), []. split; [now rewrite app_nil_r|]. split; [auto|right; eauto].
    + exists d, (n ++ [x]). split; [rewrite E; now rewrite <- app_assoc|]. split; [|exact Hd].
      intros X. apply in_app_or in X. destruct X as [X|[X|[]]]; [contradiction|]. congruence.
Qed.
(** A prefix that is empty or ends with a backslash is part of the directory. *)
Lemma prefix_of_dir p d n b r : dir_and_name p d n -> p = b ++ r -> b = [] \/ (exists b', b = b' ++ [92]) ->
  exists rel, d = b ++ rel /\ (rel = [] \/ exists q, rel = q ++ [92]).
Proof.
  intros (E & Hn & Hd) Ep Hb. destruct Hb as [->|[b' ->]]; [exists d; split; [reflexivity|exact Hd]|].
  assert (L : (length (b' ++ [92%N]) <= length d)%nat).
  { destruct (Nat.le_gt_cases (length (b' ++ [92])) (length d)) as [X|X]; [exact X|exfalso].
    apply Hn. rewrite E in Ep. apply (f_equal (skipn (length d))) in Ep.
    rewrite skipn_app, skipn_all, Nat.sub_diag in Ep. cbn in Ep. rewrite Ep.
    rewrite <- app_assoc. rewrite app_length in X. cbn [length] in X. rewrite skipn_app.
    replace (length d - length b')%nat with 0%nat by lia. apply in_or_app. right. now left. }
  exists (skipn (length (b' ++ [92])) d). split.
  - rewrite E in Ep. clear - Ep L. set (B := b' ++ [92]) in *. clearbody B.
    apply (f_equal (firstn (length B))) in Ep. rewrite (firstn_app _ B), firstn_all, Nat.sub_diag in Ep.
    rewrite (firstn_app _ d) in Ep. replace (length B - length d)%nat with 0%nat in Ep by lia.
    cbn [firstn] in Ep. rewrite !app_nil_r in Ep. rewrite <- Ep at 1. now rewrite firstn_skipn.
  - destruct Hd as [->|[d' ->]]; [left; now rewrite skipn_nil|].
    destruct (Nat.eq_dec (length (b' ++ [92])) (length (d' ++ [92]))) as [X|X]; [left; rewrite X; apply skipn_all|right].
    exists (skipn (length (b' ++ [92])) d'). rewrite !app_length in *. cbn in *.
    rewrite skipn_app. replace (length b' + 1 - length d')%nat with 0%nat by lia. reflexivity.
Qed.

Lemma index_of_app c a r : ~ In c a -> index_of c (a ++ c :: r) = Some (length a).
Proof.
  induction a as [|x a IH]; intros H; cbn; [now rewrite N.eqb_refl|].
  destruct (N.eqb_spec x c) as [->|]; [exfalso; apply H; now left|]. rewrite IH; [reflexivity|]. intros X. apply H. now right.
Qed.
Lemma drive_plain p : (forall c q, p <> c :: 58 :: q) -> (forall q, p <> 92 :: 92 :: q) -> drive_prefix p = [].
Proof.
  intros H1 H2. unfold drive_prefix, backslash. destruct p as [|c0 [|c1 q]]; [reflexivity| |].
  - destruct (c0 =? 92); [reflexivity|]. cbn. destruct (c0 =? 58); reflexivity.
  - destruct (N.eqb_spec c0 92) as [->|_].
    + destruct (N.eqb_spec c1 92) as [->|_]; [now elim (H2 q)|reflexivity].
    + cbn [index_of]. destruct (c0 =? 58); [reflexivity|].
      destruct (N.eqb_spec c1 58) as [->|_]; [now elim (H1 c0 q)|]. destruct (index_of 58 q); reflexivity.
Qed.
Lemma drive_letter c q : c <> 92 -> c <> 58 -> drive_prefix (c :: 58 :: q) = [c; 58].
Proof.
  intros H1 H2. unfold drive_prefix, backslash. apply N.eqb_neq in H1, H2. rewrite H1. cbn [index_of]. now rewrite H2.
Qed.
Lemma drive_share c s q : c <> [] -> s <> [] -> ~ In 92 c -> ~ In 92 s ->
  drive_prefix (92 :: 92 :: c ++ 92 :: s ++ 92 :: q) = 92 :: 92 :: c ++ 92 :: s.
Proof.
  intros Nc Ns Hc Hs. unfold drive_prefix, backslash.
  change (92 =? 92) with true. cbv iota. unfold index_from at 1. cbn [skipn].
  rewrite index_of_app by exact Hc. cbn [option_map].
  assert (Lc : (1 <= length c)%nat) by (destruct c; [contradiction|cbn; lia]).
  assert (Ls : (1 <= length s)%nat) by (destruct s; [contradiction|cbn; lia]).
  destruct (Nat.ltb_spec (2 + length c) 3) as [X|_]; [lia|].
  destruct (Nat.eqb_spec (length (92 :: 92 :: c ++ 92 :: s ++ 92 :: q)) (2 + length c + 1)) as [X|_].
  { exfalso. cbn [length] in X. rewrite app_length in X. cbn [length] in X. rewrite app_length in X. cbn [length] in X. lia. }
  cbn [orb]. unfold index_from.
  assert (E : skipn (2 + length c + 1) (92 :: 92 :: c ++ 92 :: s ++ 92 :: q) = s ++ 92 :: q).
  { replace (2 + length c + 1)%nat with (S (S (length c + 1))) by lia. cbn [skipn].
    rewrite skipn_app. rewrite skipn_all2 by lia. replace (length c + 1 - length c)%nat with 1%nat by lia. reflexivity. }
  rewrite E, index_of_app by exact Hs. cbn [option_map].
  destruct (Nat.ltb_spec (2 + length c + 1 + length s) (2 + length c + 2)) as [X|_]; [lia|].
  replace (92 :: 92 :: c ++ 92 :: s ++ 92 :: q) with ((92 :: 92 :: c ++ 92 :: s) ++ 92 :: q) by (cbn; now rewrite <- app_assoc).
  rewrite firstn_app. rewrite firstn_all2 by (cbn [length]; rewrite app_length; cbn [length]; lia).
  replace (2 + length c + 1 + length s - length (92%N :: 92%N :: c ++ 92%N :: s))%nat with 0%nat by (cbn [length]; rewrite app_length; cbn [length]; lia).
  cbn [firstn]. now rewrite app_nil_r.
Qed.
Lemma rooted_prefix p : rooted p -> exists rest, p = drive_prefix p ++ rest /\
  (drive_prefix p = [] \/ exists rest', rest = 92 :: rest').
Proof.
  intros [q H1 H2|c q H1 H2|c s q H1 H2 H3 H4].
  - exists q. rewrite drive_plain by assumption. auto.
  - exists (92 :: q). rewrite drive_letter by assumption. split; [reflexivity|right; eauto].
  - exists (92 :: q). rewrite drive_share by assumption. split; [cbn; now rewrite <- app_assoc|right; eauto].
Qed.

Lemma run_of_bs d : (exists d', d = d' ++ [92]) ->
  exists e k, d = e ++ repeat 92 (S k) /\ (e = [] \/ exists e' c, e = e' ++ [c] /\ c <> 92).
Proof.
  intros [d' ->]. induction d' as [|x d' IH] using rev_ind.
  - exists [], 0%nat. auto.
  - destruct (N.eq_dec x 92) as [->|Hx].
    + destruct IH as (e & k & E & He). exists e, (S k). split; [|exact He]. rewrite E.
      rewrite <- app_assoc. f_equal. replace [92] with (repeat 92 1) by reflexivity. rewrite <- repeat_app. f_equal. lia.
    + exists (d' ++ [x]), 0%nat. split; [reflexivity|]. right. exists d', x. auto.
Qed.

Lemma is_sep_92 x : x <> 47 -> x <> 92 -> is_sep x = false.
Proof. intros H1 H2. unfold is_sep, slash, backslash. apply N.eqb_neq in H1, H2. now rewrite H1, H2. Qed.
Lemma ends_sep_app p c : ends_with_sep (p ++ [c]) = is_sep c.
Proof. unfold ends_with_sep, last_char. now rewrite rev_app_distr. Qed.

Lemma win_dirname_eq p : p <> [] -> win_dirname p =
  match find_last_to is_sep (skipn (length (drive_prefix p)) p) (find_last (fun b => negb (is_sep b)) (skipn (length (drive_prefix p)) p)) with
  | None => drive_prefix p
  | Some sep_pos =>
      match find_last (fun b => negb (is_sep b)) (skipn (length (drive_prefix p)) p) with
      | None => p
      | Some _ =>
          match find_last_to (fun b => negb (is_sep b)) (skipn (length (drive_prefix p)) p) (Some sep_pos) with
          | None => firstn (length (drive_prefix p) + sep_pos + 1) p
          | Some e => firstn (length (drive_prefix p) + e + 1) p
          end
      end
  end.
Proof. destruct p; [contradiction|reflexivity]. Qed.

(** The base directory for a source that does not end with a separator. *)
Lemma dirname_base p d n : ~ In 47 p -> rooted p -> dir_and_name p d n -> n <> [] ->
  exists b, match win_dirname p with [] => [] | x => win_ensure_sep x end = b /\
  (d = [] -> b = []) /\
  (forall e c k, d = e ++ c :: repeat 92 (S k) -> c <> 92 -> (length (drive_prefix p) <= length e)%nat -> b = e ++ [c; 92]) /\
  ((forall q, d <> q ++ [92; 92]) -> b = d) /\
  (exists r, p = b ++ r) /\ (b = [] \/ exists b', b = b' ++ [92]).
Proof.
  intros H47 HR Hdn Nn. destruct (rooted_prefix p HR) as (rest & Ep & Hdr).
  remember (drive_prefix p) as dr eqn:Edr0.
  pose proof Hdn as (E & Hn & Hd).
  (* the directory part starts with the drive *)
  assert (D2 : exists d2, d = dr ++ d2 /\ rest = d2 ++ n /\ (d2 = [] \/ exists q, d2 = q ++ [92]) /\ (d2 = [] -> dr = [])).
  { destruct Hdr as [Hdr|[rest' ->]].
    - exists d. rewrite Hdr in *. cbn in *. split; [reflexivity|]. split; [congruence|]. split; [exact Hd|auto].
    - destruct (prefix_of_dir p d n (dr ++ [92]) rest' Hdn) as (rl & Ed & Hrl); [rewrite <- app_assoc; exact Ep|right; eauto|].
      exists (92 :: rl). rewrite <- app_assoc in Ed. split; [exact Ed|]. split.
      + rewrite E, Ed in Ep. cbn [app] in Ep. rewrite <- app_assoc in Ep. apply app_inv_head in Ep. cbn [app] in Ep. now rewrite <- Ep.
      + split; [|discriminate]. right. destruct Hrl as [->|[q ->]]; [exists []; reflexivity|]. exists (92 :: q). reflexivity. }
  destruct D2 as (d2 & Ed & Er & Hd2 & Hz).
  destruct (exists_last Nn) as (n' & z & En).
  assert (Hz92 : is_sep z = false).
  { apply is_sep_92.
    - intros ->. apply H47. rewrite E, En. apply in_or_app. right. apply in_or_app. right. now left.
    - intros ->. apply Hn. rewrite En. apply in_or_app. right. now left. }
  assert (Hnsep : Forall (fun b => is_sep b = false) n).
  { apply Forall_forall. intros x Hx. apply is_sep_92; intros ->.
    - apply H47. rewrite E. apply in_or_app. now right.
    - contradiction. }
  assert (Ew : win_dirname p =
    match find_last is_sep rest with
    | None => dr
    | Some sp => match find_last_to (fun b => negb (is_sep b)) rest (Some sp) with
                 | None => firstn (length dr + sp + 1) p
                 | Some e => firstn (length dr + e + 1) p
                 end
    end).
  { rewrite win_dirname_eq by (rewrite E; intros X; apply app_eq_nil in X; destruct X as [_ X]; contradiction). rewrite <- Edr0.
    assert (Es : skipn (length dr) p = rest) by (rewrite Ep; rewrite skipn_app, skipn_all, Nat.sub_diag; reflexivity).
    rewrite Es.
    assert (El : rest = (d2 ++ n') ++ [z]) by (rewrite Er, En; now rewrite app_assoc).
    assert (Ens : find_last (fun b => negb (is_sep b)) rest = Some (length (d2 ++ n'))).
    { rewrite El. change (@length N) with (@length byte). apply ProofPath.find_last_app_r; [now rewrite Hz92|constructor]. }
    rewrite Ens. unfold find_last_to at 1. change (@firstn byte) with (@firstn N). change (@length byte) with (@length N).
    assert (Ef : firstn (S (length (d2 ++ n'))) rest = rest).
    { apply firstn_all2. rewrite El, app_length. cbn [length]. lia. }
    rewrite Ef. destruct (find_last is_sep rest); reflexivity. }
  assert (No47 : forall x, In x d -> x <> 47).
  { intros x Hx ->. apply H47. rewrite E. apply in_or_app. now left. }
  rewrite Ew. destruct Hd2 as [->|Hd2].
  - cbn [app] in Er. subst rest. rewrite ProofPath.find_last_none by exact Hnsep.
    pose proof (Hz eq_refl) as Zd. rewrite Zd in Ed |- *. cbn [app] in Ed. exists []. split; [reflexivity|]. split; [auto|].
    split; [intros e c k X; rewrite Ed in X; destruct e; discriminate|]. split; [intros _; now symmetry|].
    split; [exists p; reflexivity|now left].
  - destruct Hd2 as [q Eq].
    assert (Efl : find_last is_sep rest = Some (length q)).
    { rewrite Er, Eq, <- app_assoc. apply ProofPath.find_last_app_r; [reflexivity|exact Hnsep]. }
    rewrite Efl.
    assert (Efr : firstn (S (length q)) rest = d2).
    { rewrite Er, firstn_app. assert (Lq : S (length q) = length d2) by (rewrite Eq, app_length; cbn [length]; lia). rewrite Lq, firstn_all, Nat.sub_diag.
      cbn. now rewrite app_nil_r. }
    unfold find_last_to. change (@firstn byte) with (@firstn N). rewrite Efr.
    destruct (run_of_bs d2) as (e & k & E2 & He); [eauto|].
    assert (Lq : S (length q) = length d2) by (rewrite Eq, app_length; cbn [length]; lia).
    assert (Fr : Forall (fun b => negb (is_sep b) = false) (repeat 92 (S k))).
    { apply Forall_forall. intros x Hx. apply repeat_spec in Hx. now subst. }
    destruct He as [->|(e' & c & -> & Hc)].
    + cbn [app] in E2. 
      assert (Efn : find_last (fun b : byte => negb (is_sep b)) d2 = None) by (rewrite E2; apply ProofPath.find_last_none; exact Fr).
      rewrite Efn.
      assert (Eb : firstn (length dr + length q + 1) p = d).
      { rewrite Ep, Er, app_assoc, <- Ed. rewrite firstn_app.
        assert (Ld : (length dr + length q + 1)%nat = length d) by (rewrite Ed, app_length; lia).
        rewrite Ld, firstn_all, Nat.sub_diag. cbn. now rewrite app_nil_r. }
      rewrite Eb. assert (End : d = (dr ++ q) ++ [92]) by (rewrite Ed, Eq, app_assoc; reflexivity).
      assert (Eb2 : match d with [] => [] | x => win_ensure_sep x end = d).
      { assert (Es : ends_with_sep d = true) by (rewrite End; apply ends_sep_app). unfold win_ensure_sep. destruct d; [reflexivity|]. now rewrite Es. }
      exists d. split; [destruct d; exact Eb2|]. split; [auto|]. split.
      * intros e c k' X Hc Hl. exfalso.
        (* the run of backslashes would start inside the drive *)
        rewrite Ed in X.
        assert (In c d2).
        { apply (f_equal (skipn (length dr))) in X. rewrite skipn_app, skipn_all, Nat.sub_diag in X. cbn [app skipn] in X.
          rewrite X. rewrite skipn_app. apply in_or_app. right. replace (length dr - length e)%nat with 0%nat by lia. now left. }
        rewrite E2 in H. apply repeat_spec in H. contradiction.
      * split; [auto|]. split; [exists n; exact E|right; eauto].
    + assert (Hcs : is_sep c = false).
      { apply is_sep_92; [|exact Hc]. apply No47. rewrite Ed, E2. apply in_or_app. right. apply in_or_app. left. apply in_or_app. right. now left. }
      assert (Efn : find_last (fun b : byte => negb (is_sep b)) d2 = Some (length e')).
      { rewrite E2, <- app_assoc. cbn [app]. apply ProofPath.find_last_app_r; [now rewrite Hcs|exact Fr]. }
      rewrite Efn.
      assert (Eb : firstn (length dr + length e' + 1) p = dr ++ e' ++ [c]).
      { assert (Ex : p = (dr ++ e' ++ [c]) ++ repeat 92 (S k) ++ n).
        { rewrite Ep, Er, E2. rewrite <- !app_assoc. reflexivity. }
        rewrite Ex at 1. rewrite firstn_app.
        assert (Lx : (length dr + length e' + 1)%nat = length (dr ++ e' ++ [c])) by (rewrite !app_length; cbn [length]; lia).
        rewrite Lx, firstn_all, Nat.sub_diag. cbn. now rewrite app_nil_r. }
      rewrite Eb.
      assert (Eb2 : match dr ++ e' ++ [c] with [] => [] | x => win_ensure_sep x end = (dr ++ e') ++ [c; 92]).
      { assert (Ew2 : win_ensure_sep (dr ++ e' ++ [c]) = (dr ++ e') ++ [c; 92]).
        { unfold win_ensure_sep. rewrite app_assoc, ends_sep_app, Hcs. now rewrite <- app_assoc. }
        destruct (dr ++ e' ++ [c]) eqn:X; [|rewrite <- Ew2; reflexivity].
        apply app_eq_nil in X. destruct X as [_ X]. destruct e'; discriminate. }
      exists ((dr ++ e') ++ [c; 92]). split; [destruct (dr ++ e' ++ [c]); exact Eb2|].
      assert (Edd : d = (dr ++ e') ++ c :: repeat 92 (S k)) by (rewrite Ed, E2; rewrite <- !app_assoc; reflexivity).
      split; [intros X; rewrite X in Edd; destruct (dr ++ e'); discriminate|]. split.
      * intros e1 c1 k1 X Hc1 _. rewrite Edd in X.
        (* the trailing run determines the split *)
        assert (R : forall l1 l2 x y (i j : nat), x <> 92 -> y <> 92 -> l1 ++ x :: repeat 92 i = l2 ++ y :: repeat 92 j -> l1 ++ [x] = l2 ++ [y]).
        { clear. intros l1 l2 x y i. revert l1 l2 x y. induction i as [|i IH]; intros l1 l2 x y j Hx Hy Exy.
          - destruct j as [|j]; [exact Exy|]. exfalso.
            assert (Q : l2 ++ y :: repeat 92 (S j) = (l2 ++ y :: repeat 92 j) ++ [92]).
            { rewrite <- app_assoc. cbn. f_equal. f_equal. change (92 :: repeat 92 j) with (repeat 92 (S j)).
              replace (S j) with (j + 1)%nat by lia. now rewrite repeat_app. }
            rewrite Q in Exy. cbn in Exy. apply app_inj_tail in Exy. destruct Exy. contradiction.
          - assert (Q : forall l u m, l ++ u :: repeat 92 (S m) = (l ++ u :: repeat 92 m) ++ [92]).
            { intros l u m. rewrite <- app_assoc. cbn. f_equal. f_equal. change (92 :: repeat 92 m) with (repeat 92 (S m)).
              replace (S m) with (m + 1)%nat by lia. now rewrite repeat_app. }
            rewrite Q in Exy. destruct j as [|j].
            + cbn in Exy. apply app_inj_tail in Exy. destruct Exy as [_ <-]. contradiction.
            + rewrite Q in Exy. apply app_inj_tail in Exy. destruct Exy as [Exy _]. eapply IH; eauto. }
        apply R in X; auto. apply app_inj_tail in X. destruct X as [-> ->]. reflexivity.
      * split.
        -- intros Hq. destruct k as [|k]; [rewrite Edd; reflexivity|]. exfalso.
           apply (Hq ((dr ++ e') ++ c :: repeat 92 k)). rewrite Edd. rewrite <- !app_assoc. cbn [app]. do 2 f_equal. f_equal.
           replace (S (S k)) with (k + 2)%nat by lia. now rewrite repeat_app.
        -- split.
           ++ exists (repeat 92 k ++ n). rewrite E, Edd. rewrite <- !app_assoc. reflexivity.
           ++ right. exists ((dr ++ e') ++ [c]). rewrite <- !app_assoc. reflexivity.
Qed.

(** ** Preparing a source *)
Lemma fix_no47 p : ~ In 47 (win_fix_seps p).
Proof.
  unfold win_fix_seps. intros I. apply in_map_iff in I. destruct I as (x & E & _). unfold slash, backslash in E.
  destruct (x =? 47) eqn:X; [discriminate|]. apply N.eqb_neq in X. contradiction.
Qed.
Lemma fix_windows p : win_fix_seps p = windows p.
Proof. reflexivity. Qed.
Lemma ensure_no47 p : ~ In 47 p -> ~ In 47 (win_ensure_sep p).
Proof.
  intros H. unfold win_ensure_sep. destruct (ends_with_sep p); [exact H|]. intros I. apply in_app_or in I.
  destruct I as [I|[I|[]]]; [contradiction|discriminate].
Qed.
Lemma skipn_in {A} (x : A) k l : In x (skipn k l) -> In x l.
Proof. intros I. rewrite <- (firstn_skipn k l). apply in_or_app. now right. Qed.
Lemma join_no47 p a : ~ In 47 p -> ~ In 47 a -> ~ In 47 (win_join p a).
Proof.
  intros Hp Ha. unfold win_join. destruct a as [|x a]; [exact Hp|]. intros I. apply in_app_or in I.
  destruct I as [I|I]; [|contradiction]. destruct (needs_sep p); [|contradiction]. apply in_app_or in I.
  destruct I as [I|[I|[]]]; [contradiction|discriminate].
Qed.
Definition special_source (source : str) : str :=
  let s := win_fix_seps source in if special_dir s then win_ensure_sep s else s.
Lemma special_no47 source : ~ In 47 (special_source source).
Proof. unfold special_source. destruct (special_dir _); [apply ensure_no47|]; apply fix_no47. Qed.
Lemma full_no47 source sd : ~ In 47 (full_source (special_source source) (win_fix_seps sd)).
Proof.
  unfold full_source. destruct (win_fix_seps sd) eqn:E; [apply special_no47|]. rewrite <- E. apply join_no47; [apply fix_no47|].
  intros I. apply skipn_in in I. revert I. apply special_no47.
Qed.
Lemma prepare_eq source sd relative : prepare source sd relative =
  (full_source (special_source source) (win_fix_seps sd),
   base_dir (full_source (special_source source) (win_fix_seps sd)) (win_fix_seps sd) relative).
Proof. reflexivity. Qed.

Lemma is_prefix_spec a l : is_prefix a l = true <-> exists r, l = a ++ r.
Proof.
  revert l. induction a as [|x a IH]; intros l; cbn; [split; eauto|].
  destruct l as [|y l]; [split; [discriminate|intros [r X]; discriminate]|].
  rewrite Bool.andb_true_iff, N.eqb_eq, IH. split.
  - intros (-> & r & ->). eauto.
  - intros [r X]. injection X as <- ->. eauto.
Qed.
Lemma find_str_some a l i : find_str a l = Some i -> exists r, l = firstn i l ++ a ++ r /\ (i + length a <= length l)%nat.
Proof.
  revert i. induction l as [|x l IH]; intros i; cbn [find_str].
  - destruct (is_prefix a []) eqn:E; [|discriminate]. intros X. injection X as <-. apply is_prefix_spec in E. destruct E as [r E].
    exists r. cbn. rewrite <- E. split; [reflexivity|]. destruct a; [cbn; lia|discriminate].
  - destruct (is_prefix a (x :: l)) eqn:E.
    + intros X. injection X as <-. apply is_prefix_spec in E. destruct E as [r E]. exists r. rewrite E. cbn [firstn app].
      split; [reflexivity|]. rewrite app_length. lia.
    + destruct (find_str a l) as [j|] eqn:F; [|discriminate]. cbn. intros X. injection X as <-.
      destruct (IH j eq_refl) as (r & Er & L). exists r. cbn [firstn app length]. split; [now rewrite <- Er|lia].
Qed.
Lemma find_str_none a l : find_str a l = None -> forall u v, l <> u ++ a ++ v.
Proof.
  induction l as [|x l IH]; cbn [find_str]; intros F u v X.
  - destruct (is_prefix a []) eqn:E; [discriminate|]. assert (Y : is_prefix a [] = true).
    { apply is_prefix_spec. destruct u; [|discriminate]. exists v. exact X. }
    congruence.
  - destruct (is_prefix a (x :: l)) eqn:E; [discriminate|]. destruct (find_str a l) eqn:Fl; [discriminate|].
    destruct u as [|y u]; cbn [app] in X.
    + assert (Y : is_prefix a (x :: l) = true) by (apply is_prefix_spec; exists v; exact X). congruence.
    + injection X as _ X. exact (IH eq_refl u v X).
Qed.
Lemma find_str_first a l u v : l = u ++ a ++ v -> (forall u' v', l = u' ++ a ++ v' -> (length u <= length u')%nat) ->
  find_str a l = Some (length u).
Proof.
  intros E Hm. destruct (find_str a l) as [i|] eqn:F; [|exfalso; eapply find_str_none; eauto].
  f_equal. destruct (find_str_some _ _ _ F) as (r & Er & L). apply Nat.le_antisymm; cycle 1.
  { etransitivity; [eapply Hm, Er|]. rewrite firstn_length. lia. }
  (* the scan stops at the first occurrence *)
  clear Hm Er L r. revert i u E F. induction l as [|x l IH]; intros i u E F.
  - destruct u; [|discriminate]. cbn in E, F. destruct (is_prefix a []) eqn:P; [injection F as <-; cbn; lia|discriminate].
  - cbn [find_str] in F. destruct (is_prefix a (x :: l)) eqn:P; [injection F as <-; lia|].
    destruct u as [|y u].
    + exfalso. assert (Y : is_prefix a (x :: l) = true) by (apply is_prefix_spec; exists v; exact E). congruence.
    + cbn in E. injection E as <- E. destruct (find_str a l) as [j|] eqn:Fj; [|discriminate]. cbn in F. injection F as <-.
      cbn [length]. specialize (IH j u E eq_refl). lia.
Qed.

Lemma rooted_bs p : rooted p -> exists r, p = drive_prefix_bs p ++ r /\
  (drive_prefix_bs p = [] \/ exists b, drive_prefix_bs p = b ++ [92]).
Proof.
  intros H. destruct (rooted_prefix p H) as (rest & Ep & Hd). unfold drive_prefix_bs. cbv zeta.
  assert (En : nth_error p (length (drive_prefix p)) = nth_error rest 0).
  { rewrite Ep at 1. rewrite nth_error_app2 by lia. now rewrite Nat.sub_diag. }
  rewrite En. destruct Hd as [Hd|[rest' ->]].
  - rewrite Hd in Ep |- *. cbn [app] in Ep |- *. subst rest. destruct p as [|x p]; [exists []; auto|]. cbn [nth_error].
    destruct (x =? backslash) eqn:X.
    + apply N.eqb_eq in X. subst x. exists p. split; [reflexivity|]. right. exists []. reflexivity.
    + exists (x :: p). auto.
  - cbn [nth_error]. change (92 =? backslash) with true. cbv iota. exists rest'. rewrite <- app_assoc. split; [exact Ep|]. right. eauto.
Qed.

Definition dirlike (b : str) : Prop := b = [] \/ exists q, b = q ++ [92].

Lemma sd_shape sd : (sd = [] \/ exists e c, sd = e ++ [c] /\ (c = 47 \/ c = 92)) -> dirlike (win_fix_seps sd).
Proof.
  intros [->|(e & c & -> & Hc)]; [now left|]. right. exists (win_fix_seps e). unfold win_fix_seps. rewrite map_app. cbn [map].
  destruct Hc as [->| ->]; reflexivity.
Qed.

Lemma join_prefix p a : dirlike p -> exists r, win_join p a = p ++ r.
Proof.
  intros Hp. unfold win_join. destruct a as [|x a]; [exists []; now rewrite app_nil_r|].
  assert (E : needs_sep p = false).
  { destruct Hp as [->|[q ->]]; [reflexivity|]. unfold needs_sep. now rewrite ProofPath.last_char_snoc. }
  rewrite E. eauto.
Qed.

Lemma base_prefix source sd relative full base : prepare source sd relative = (full, base) ->
  (sd = [] \/ exists e c, sd = e ++ [c] /\ (c = 47 \/ c = 92)) -> rooted full ->
  dirlike base /\ exists r, full = base ++ r.
Proof.
  rewrite prepare_eq. intros X Hsd HR.
  pose proof (full_no47 source sd) as N47.
  assert (Ef : full = full_source (special_source source) (win_fix_seps sd)) by congruence.
  assert (Eb : base = base_dir full (win_fix_seps sd) relative) by (rewrite Ef; congruence). clear X. rewrite <- Ef in N47.
  rewrite Eb. unfold base_dir. destruct relative; cbn [negb].
  - destruct (find_str [backslash; 46; backslash] full) as [i|] eqn:F.
    + destruct (find_str_some _ _ _ F) as (r & Er & L). cbn [length] in L.
      assert (E3 : firstn (i + 3) full = firstn i full ++ [92; 46; 92]).
      { assert (G : forall (pre r' : str), length pre = i -> firstn (i + 3) (pre ++ [92; 46; 92] ++ r') = pre ++ [92; 46; 92]).
        { intros pre r' <-. rewrite firstn_app, firstn_all2 by lia. f_equal. replace (length pre + 3 - length pre)%nat with 3%nat by lia. reflexivity. }
        rewrite Er at 1. apply G. rewrite firstn_length. lia. }
      rewrite E3. split.
      * right. exists (firstn i full ++ [92; 46]). now rewrite <- app_assoc.
      * exists r. rewrite Er at 1. now rewrite <- app_assoc.
    + pose proof (sd_shape sd Hsd) as Hs. destruct (win_fix_seps sd) as [|s0 s1] eqn:Es.
      * destruct (rooted_bs full HR) as (r & E & Hb). split; [exact Hb|]. eauto.
      * split; [exact Hs|]. unfold full_source in Ef. rewrite Ef. apply join_prefix. exact Hs.
  - destruct (ends_with_sep full) eqn:Ee.
    + split; [|exists []; now rewrite app_nil_r]. destruct full as [|f0 f1]; [now left|].
      destruct (exists_last (l := f0 :: f1)) as (q & z & Eq); [discriminate|]. rewrite Eq in Ee, N47 |- *. rewrite ends_sep_app in Ee.
      right. exists q. f_equal. f_equal. unfold is_sep in Ee. apply Bool.orb_true_iff in Ee. destruct Ee as [Z|Z]; apply N.eqb_eq in Z.
      * exfalso. apply N47. apply in_or_app. right. left. exact Z.
      * exact Z.
    + destruct (dir_and_name_exists full) as (d & n & Hdn).
      destruct n as [|n0 n1].
      * (* a path without a name does not end with a separator: it is empty *)
        destruct Hdn as (E & _ & [->|[q ->]]).
        -- cbn in E. rewrite E. split; [now left|]. exists []. reflexivity.
        -- exfalso. rewrite app_nil_r in E. rewrite E, ends_sep_app in Ee. discriminate.
      * destruct (dirname_base full d (n0 :: n1) N47 HR Hdn) as (b & E & _ & _ & _ & Hp & Hb); [discriminate|]. rewrite E. split; [exact Hb|exact Hp].
Qed.

Lemma base_non_relative source sd full base d n : prepare source sd false = (full, base) -> rooted full ->
  dir_and_name full d n -> (n = [] \/ forall q, d <> q ++ [92; 92]) -> base = d.
Proof.
  rewrite prepare_eq. intros X HR Hdn Hq.
  pose proof (full_no47 source sd) as N47.
  assert (Ef : full = full_source (special_source source) (win_fix_seps sd)) by congruence.
  assert (Eb : base = base_dir full (win_fix_seps sd) false) by (rewrite Ef; congruence). clear X. rewrite <- Ef in N47.
  rewrite Eb. unfold base_dir. cbn [negb].
  destruct n as [|n0 n1].
  - destruct Hdn as (E & _ & [->|[q ->]]); rewrite app_nil_r in E; rewrite E; [reflexivity|]. now rewrite ends_sep_app.
  - destruct Hq as [|Hq]; [discriminate|].
    assert (Ee : ends_with_sep full = false).
    { destruct Hdn as (E & Hn & _). destruct (exists_last (l := n0 :: n1)) as (q & z & Eq); [discriminate|].
      rewrite E, Eq, app_assoc, ends_sep_app. apply is_sep_92; intros ->.
      - apply N47. rewrite E, Eq. apply in_or_app. right. apply in_or_app. right. now left.
      - apply Hn. rewrite Eq. apply in_or_app. right. now left. }
    rewrite Ee. destruct (dirname_base full d (n0 :: n1) N47 HR Hdn) as (b & E & _ & _ & Hb & _); [discriminate|]. rewrite E. auto.
Qed.
