(** C73: the server's search of the destination and copy-dest directories. *)
From Verif Require Import Base ListX Str ModelPath ModelPathFilter SpecPathFilter ModelFileDiff ModelFinder SpecFinder ProofFinder.
From Verif Require PropFileDiff ModelSync ProofSync SpecSync.
Local Open Scope N_scope.
Local Notation str := (list N).

(** The search makes the calls that the tree prescribes, in order, and stops at the
    first one that fails; an error other than "no such file or directory" makes it fail. *)
Theorem C73_search_calls :
  forall A (h : A -> str -> str -> Z -> N -> bool -> outcome (A * bool)) recursive fs base p mt t s,
  one_slash base p -> fs p = Dir mt (Opened t) -> good_names t ->
  search_files h recursive fs base s =
  do (s', ok) <- make_calls h (fst (calls recursive base t)) s;
  Ok (s', if (ok : bool) then match snd (calls recursive base t) with None => true | Some e => e =? 2 end else false).
Proof. intros. now apply search_calls with (p := p) (mt := mt). Qed.
Print Assumptions C73_search_calls.

(** Searching a directory adds exactly its files and readable directories, with their
    relative paths, times and sizes, each once. *)
Theorem C73_add_files_exact :
  forall fs base p mt t ptr recursive rules files0 dirs0,
  one_slash base p -> fs p = Dir mt (Opened t) ->
  searchable t -> good_names t -> safe_rules rules ->
  exists files dirs,
  add_files fs base ptr recursive rules (files0, dirs0) = Ok (files0 ++ files, dirs0 ++ dirs) /\
  (forall f, In f files <->
     exists path mtime size, f = mk_finfo path mtime size kInvalidIndex ptr /\ file_of recursive rules t path mtime size) /\
  (forall d, In d dirs <-> exists path, d = mk_dinfo path kInvalidIndex ptr /\ dir_of recursive rules t path) /\
  (distinct t -> NoDup (map fi_path files ++ map di_path dirs)).
Proof.
  intros fs base p mt t ptr recursive rules files0 dirs0 O F S G R.
  exists (files_of base ptr rules (fst (calls recursive base t))), (dirs_of base ptr rules (fst (calls recursive base t))).
  split; [|split; [|split]].
  - rewrite (add_files_calls fs base p mt t ptr recursive rules _ O F G R). cbv zeta. rewrite calls_ok by exact S. reflexivity.
  - now apply files_of_spec.
  - now apply dirs_of_spec.
  - intros D. apply of_nodup.
    + intros d n mt' sz b H. eapply calls_shape; eauto.
    + now apply calls_nodup.
Qed.
Print Assumptions C73_add_files_exact.

(** A directory that does not exist counts as empty. *)
Theorem C73_missing_directory_is_empty :
  forall fs base p ptr recursive rules s,
  one_slash base p -> fs p = NoStat 2 ->
  add_files fs base ptr recursive rules s = Ok s.
Proof.
  intros fs base p ptr recursive rules s O F. unfold add_files, search_files, nftw.
  destruct (one_slash_ends _ _ O) as (q & E0). destruct base as [|b0 base'] eqn:Eb; [destruct q; discriminate|].
  rewrite <- Eb in *. rewrite (strip_one _ _ O), F. reflexivity.
Qed.
Print Assumptions C73_missing_directory_is_empty.

(** Any other error is reported: of the directory itself... *)
Theorem C73_directory_error_reported :
  forall fs base p ptr recursive rules s,
  one_slash base p ->
  (exists e, fs p = NoStat e /\ e <> 2) \/ (exists mt e, fs p = Dir mt (OpenErr e) /\ e <> 2 /\ e <> 13) ->
  add_files fs base ptr recursive rules s = Fail.
Proof.
  intros fs base p ptr recursive rules s O F. unfold add_files, search_files, nftw.
  destruct (one_slash_ends _ _ O) as (q & E0). destruct base as [|b0 base'] eqn:Eb; [destruct q; discriminate|].
  rewrite <- Eb in *. rewrite (strip_one _ _ O).
  destruct F as [(e & -> & Ne)|(mt & e & -> & Ne & Na)].
  - cbn [bind]. unfold ENOENT. destruct (N.eqb_spec e 2); [contradiction|reflexivity].
  - cbn [walk_dir]. unfold EACCES. destruct (N.eqb_spec e 13); [contradiction|]. cbn [bind]. unfold ENOENT.
    destruct (N.eqb_spec e 2); [contradiction|reflexivity].
Qed.
Print Assumptions C73_directory_error_reported.

(** ... or of anything the search comes across, unless a directory vanished while it
    was being opened (see C73_vanished_directory_refuted). *)
Theorem C73_entry_error_reported :
  forall fs base p mt t ptr recursive rules s l n nd,
  one_slash base p -> fs p = Dir mt (Opened t) -> good_names t -> safe_rules rules ->
  everywhere (fun _ nd => nd <> NoStat 2 /\ forall mt, nd <> Dir mt (OpenErr 2)) t ->
  at_path t (l ++ [n]) nd -> recursive = true \/ l = [] ->
  (exists e, nd = NoStat e /\ e <> 13) \/ (exists m e, nd = Dir m (OpenErr e) /\ e <> 13) ->
  add_files fs base ptr recursive rules s = Fail.
Proof.
  intros fs base p mt t ptr recursive rules s l n nd O F G R E2 Hp Hr Hb.
  rewrite (add_files_calls fs base p mt t ptr recursive rules _ O F G R). cbv zeta.
  assert (X : snd (calls recursive base t) <> None).
  { eapply calls_error; [exact Hp|exact Hr|].
    destruct Hb as [(e & -> & Ne)|(m & e & -> & Ne)]; [|exact Ne]. split; [exact Ne|]. intros ->.
    clear - Hp E2.
    revert t E2 Hp. induction l as [|x l IH]; intros t E2 Hp; apply at_path_inv in Hp.
    - destruct Hp as [(_ & He & _)|(x & l' & mt & t' & X & _)]; [|discriminate].
      apply (entry_everywhere _ _ _ _ E2) in He. now elim (proj1 (proj1 He)).
    - destruct Hp as [(X & _)|(x' & l' & mt & t' & X & He & _ & Hl)]; [discriminate|]. injection X as <- <-.
      apply (entry_everywhere _ _ _ _ E2) in He. destruct He as [_ He]. eauto. }
  pose proof (calls_error_not recursive t 2 eq_refl E2 base) as Y.
  destruct (snd (calls recursive base t)) as [e|]; [|contradiction].
  destruct (N.eqb_spec e 2) as [->|]; [contradiction|reflexivity].
Qed.
Print Assumptions C73_entry_error_reported.

Lemma split_app {B} (l1 l2 b a : list B) f : l1 ++ l2 = b ++ f :: a ->
  (exists c, l1 = b ++ f :: c) \/ (exists c, b = l1 ++ c /\ l2 = c ++ f :: a).
Proof.
  revert b. induction l1 as [|x l1 IH]; intros b E; [right; exists b; auto|].
  destruct b as [|y b]; cbn in E; injection E as -> E.
  - left. exists l1. reflexivity.
  - destruct (IH _ E) as [(c & ->)|(c & -> & ->)]; [left; exists c; reflexivity|right; exists c; split; reflexivity].
Qed.
Lemma nodup_key {B} (key : B -> str) l x y : NoDup (map key l) -> In x l -> In y l -> key x = key y -> x = y.
Proof.
  induction l as [|z l IH]; cbn; [tauto|]. intros N Hx Hy E. inversion N as [|k m Nz N']; subst.
  destruct Hx as [->|Hx], Hy as [->|Hy]; auto.
  - exfalso. apply Nz. rewrite E. now apply in_map.
  - exfalso. apply Nz. rewrite <- E. now apply in_map.
Qed.
Lemma first_wins {B} (key : B -> str) l1 l2 r :
  NoDup (map key l1) -> NoDup (map key l2) ->
  (forall f, In f (l1 ++ l2) -> In (key f) (map key r)) ->
  (forall f, In f r -> exists before after, l1 ++ l2 = before ++ f :: after /\ ~ In (key f) (map key before)) ->
  forall f, In f r <-> In f l1 \/ (In f l2 /\ ~ In (key f) (map key l1)).
Proof.
  intros N1 N2 Al Fi.
  assert (First : forall f, In f r -> In f l1 \/ (In f l2 /\ ~ In (key f) (map key l1))).
  { intros f H. apply Fi in H. destruct H as (b & a & E & Nb). apply split_app in E.
    destruct E as [(c & ->)|(c & -> & ->)]; [left; apply in_or_app; right; now left|right].
    split; [apply in_or_app; right; now left|]. intros X. apply Nb. rewrite map_app. apply in_or_app. now left. }
  intros f. split; [apply First|]. intros H.
  assert (I : In f (l1 ++ l2)) by (apply in_or_app; tauto).
  apply Al in I. apply in_map_iff in I. destruct I as (g & Eg & Ig).
  assert (g = f); [|now subst].
  destruct (First g Ig) as [G|[G Ng]], H as [H|[H Nh]].
  - eapply nodup_key; [exact N1| | |]; eauto.
  - exfalso. apply Nh. rewrite <- Eg. now apply in_map.
  - exfalso. apply Ng. rewrite Eg. now apply in_map.
  - eapply nodup_key; [exact N2| | |]; eauto.
Qed.

(** The lists the diff is computed from: everything in the destination, and everything
    in the copy-dest directory whose path is not in the destination; no path occurs
    twice. *)
Theorem C73_find_files_dest_wins :
  forall fs dest copy p1 p2 mt1 mt2 t1 t2 dptr cptr recursive rules,
  one_slash dest p1 -> fs p1 = Dir mt1 (Opened t1) ->
  one_slash copy p2 -> fs p2 = Dir mt2 (Opened t2) ->
  searchable t1 -> good_names t1 -> distinct t1 ->
  searchable t2 -> good_names t2 -> distinct t2 -> safe_rules rules ->
  exists files dirs,
  find_files fs dest copy dptr cptr recursive rules = Ok (files, dirs) /\
  NoDup (map fi_path files) /\ NoDup (map di_path dirs) /\
  (forall f, In f files <-> exists path mtime size,
     (f = mk_finfo path mtime size kInvalidIndex dptr /\ file_of recursive rules t1 path mtime size) \/
     (f = mk_finfo path mtime size kInvalidIndex cptr /\ file_of recursive rules t2 path mtime size /\
      ~ exists m z, file_of recursive rules t1 path m z)) /\
  (forall d, In d dirs <-> exists path,
     (d = mk_dinfo path kInvalidIndex dptr /\ dir_of recursive rules t1 path) \/
     (d = mk_dinfo path kInvalidIndex cptr /\ dir_of recursive rules t2 path /\ ~ dir_of recursive rules t1 path)).
Proof.
  intros fs dest copy p1 p2 mt1 mt2 t1 t2 dptr cptr recursive rules O1 F1 O2 F2 S1 G1 D1 S2 G2 D2 R.
  destruct (C73_add_files_exact fs dest p1 mt1 t1 dptr recursive rules [] [] O1 F1 S1 G1 R) as (fa & da & E1 & A1 & B1 & N1).
  destruct (C73_add_files_exact fs copy p2 mt2 t2 cptr recursive rules fa da O2 F2 S2 G2 R) as (fb & db & E2 & A2 & B2 & N2).
  specialize (N1 D1). specialize (N2 D2).
  assert (Sp : forall l1 l2 : list str, NoDup (l1 ++ l2) -> NoDup l1 /\ NoDup l2).
  { intros l1 l2 X. induction l1 as [|x l1 IH]; cbn in X; [split; [constructor|exact X]|].
    inversion X as [|y m Ny X']; subst. destruct (IH X') as [P Q]. split; [|exact Q]. constructor; [|exact P].
    intros Z. apply Ny. apply in_or_app. now left. }
  apply Sp in N1, N2. destruct N1 as [Nfa Nda], N2 as [Nfb Ndb]. clear Sp.
  assert (Ec : match copy with [] => Ok (fa, da) | _ => add_files fs copy cptr recursive rules (fa, da) end = Ok (fa ++ fb, da ++ db)).
  { destruct (one_slash_ends _ _ O2) as (q & E0). destruct copy; [destruct q; discriminate|exact E2]. }
  destruct (PropFileDiff.C12_server_list_unique_first (fa ++ fb) (da ++ db)) as ((U1 & U2 & U3) & (V1 & V2 & V3)).
  exists (fst (release_files (fa ++ fb) (da ++ db))), (snd (release_files (fa ++ fb) (da ++ db))).
  split; [|split; [exact U1|split; [exact V1|split]]].
  - unfold find_files. cbn [app] in E1. rewrite E1. cbn [bind].
    destruct copy as [|c0 copy']; cbn beta iota in Ec |- *; [injection Ec as <- <-; reflexivity|].
    unfold finder in *. rewrite Ec. reflexivity.
  - intros f. rewrite (first_wins fi_path fa fb _ Nfa Nfb U2 U3). rewrite A1, A2. split.
    + intros [(path & m & z & E & H)|((path & m & z & E & H) & Nn)]; exists path, m, z; [left; auto|right].
      split; [exact E|]. split; [exact H|]. intros (m' & z' & H'). apply Nn. rewrite E. cbn.
      apply in_map_iff. exists (mk_finfo path m' z' kInvalidIndex dptr). split; [reflexivity|]. apply A1. eauto.
    + intros (path & m & z & [(E & H)|(E & H & Nn)]); [left; eauto|right]. split; [eauto|].
      rewrite E. cbn. intros X. apply in_map_iff in X. destruct X as (g & Eg & Ig). apply A1 in Ig.
      destruct Ig as (path' & m' & z' & -> & H'). cbn in Eg. subst. apply Nn. eauto.
  - intros f. rewrite (first_wins di_path da db _ Nda Ndb V2 V3). rewrite B1, B2. split.
    + intros [(path & E & H)|((path & E & H) & Nn)]; exists path; [left; auto|right].
      split; [exact E|]. split; [exact H|]. intros H'. apply Nn. rewrite E. cbn.
      apply in_map_iff. exists (mk_dinfo path kInvalidIndex dptr). split; [reflexivity|]. apply B1. eauto.
    + intros (path & [(E & H)|(E & H & Nn)]); [left; eauto|right]. split; [eauto|].
      rewrite E. cbn. intros X. apply in_map_iff in X. destruct X as (g & Eg & Ig). apply B1 in Ig.
      destruct Ig as (path' & -> & H'). cbn in Eg. subst. contradiction.
Qed.
Print Assumptions C73_find_files_dest_wins.

(** The search that the model of the whole sync (C15 to C17) uses lists the same files
    and directories, if its file system [s] holds what the tree holds. *)
Theorem C73_sync_search_agrees :
  forall fs base p mt t ptr recursive rules opts filter_match (s : ModelSync.fs),
  one_slash base p -> fs p = Dir mt (Opened t) ->
  searchable t -> good_names t -> safe_rules rules ->
  ModelSync.so_recursive opts = recursive ->
  (forall q, filter_match q = true <-> filter_spec rules q true) ->
  (forall q f, In (q, ModelSync.NFile f) s -> exists l, q = slashed l /\
     at_path t l (Other (ModelSync.f_mtime f) (N.of_nat (length (ModelSync.f_data f))))) ->
  (forall l m z, at_path t l (Other m z) -> exists f, In (slashed l, ModelSync.NFile f) s /\
     m = ModelSync.f_mtime f /\ z = N.of_nat (length (ModelSync.f_data f))) ->
  (forall q, In (q, ModelSync.NDir) s <-> exists l m t', q = slashed l /\ at_path t l (Dir m (Opened t'))) ->
  exists files dirs,
  add_files fs base ptr recursive rules ([], []) = Ok (files, dirs) /\
  (forall f, In f files <-> In f (ModelSync.scan_files filter_match opts s ptr)) /\
  (forall d, In d dirs <-> In d (ModelSync.scan_dirs filter_match opts s ptr)).
Proof.
  intros fs base p mt t ptr recursive rules opts fm s O F S G R Eo Ef H1 H2 H3.
  destruct (C73_add_files_exact fs base p mt t ptr recursive rules [] [] O F S G R) as (files & dirs & E & A & B & _).
  exists files, dirs. split; [exact E|].
  assert (W : forall l, Forall good_name l -> l <> [] ->
    (wanted recursive rules l <-> ModelSync.visible fm opts (slashed l) = true)).
  { intros l Fl Nl. rewrite <- ProofSync.listed_visible. unfold wanted, SpecSync.listed. rewrite Ef, Eo.
    assert (X : length l = 1%nat <-> ~ In 47 (slashed l)).
    { destruct l as [|x [|y l]]; [contradiction| |].
      - split; [|reflexivity]. intros _. apply Forall_inv in Fl. exact (proj1 (proj2 Fl)).
      - split; [discriminate|]. intros X. exfalso. apply X. cbn [slashed]. apply in_or_app. right. now left. }
    tauto. }
  split.
  - intros f. rewrite A. unfold ModelSync.scan_files. rewrite in_flat_map. split.
    + intros (path & m & z & -> & l & Hl & -> & Hw). pose proof (at_path_names _ _ _ G Hl) as [Fl Nl].
      destruct (H2 _ _ _ Hl) as (f & If & -> & ->). exists (slashed l, ModelSync.NFile f). split; [exact If|].
      cbn. apply W in Hw; auto. rewrite Hw. now left.
    + intros ((q & nd) & Iq & Hq). destruct nd as [|f']; cbn in Hq; [contradiction|].
      destruct (ModelSync.visible fm opts q) eqn:Ev; [|contradiction]. destruct Hq as [<-|[]].
      destruct (H1 _ _ Iq) as (l & -> & Hl). pose proof (at_path_names _ _ _ G Hl) as [Fl Nl].
      do 3 eexists. split; [reflexivity|]. exists l. split; [exact Hl|]. split; [reflexivity|]. now apply W.
  - intros d. rewrite B. unfold ModelSync.scan_dirs. rewrite in_flat_map. split.
    + intros (path & -> & l & m & t' & Hl & -> & Hw). pose proof (at_path_names _ _ _ G Hl) as [Fl Nl].
      exists (slashed l, ModelSync.NDir). split; [apply H3; eauto|]. cbn. apply W in Hw; auto. rewrite Hw. now left.
    + intros ((q & nd) & Iq & Hq). destruct nd as [|f']; cbn in Hq; [|contradiction].
      destruct (ModelSync.visible fm opts q) eqn:Ev; [|contradiction]. destruct Hq as [<-|[]].
      apply H3 in Iq. destruct Iq as (l & m & t' & -> & Hl). pose proof (at_path_names _ _ _ G Hl) as [Fl Nl].
      eexists. split; [reflexivity|]. exists l, m, t'. split; [exact Hl|]. split; [reflexivity|]. now apply W.
Qed.
Print Assumptions C73_sync_search_agrees.

(** The destination that is searched: a path that does not end with a separator and that
    the shell-like expansion leaves alone, or expands to another such path, gets exactly
    one slash. *)
Theorem C73_destination_one_slash :
  forall wordexp destination copy_dest d c,
  wordexp (map (fun b => if b =? 92 then 47 else b) destination ++ [47]) = Words [d ++ [c; 47]] ->
  c <> 47 ->
  (forall q b, destination = q ++ [b] -> b <> 47 /\ b <> 92) ->
  exists cd, set_directories wordexp destination copy_dest = Ok (d ++ [c; 47], cd) /\
             one_slash (d ++ [c; 47]) (d ++ [c]) /\
             (copy_dest = [] -> cd = []).
Proof.
  intros we dest copy d c Hw Hc Hd. unfold set_directories.
  assert (E : ensure_ends_with_sep (fix_seps dest) = map (fun b => if b =? 92 then 47 else b) dest ++ [47]).
  { unfold ensure_ends_with_sep, ends_with_sep, last_char, fix_seps, backslash, slash.
    destruct dest as [|b q] using rev_ind; [reflexivity|]. clear IHq.
    destruct (Hd q b eq_refl) as [B1 B2]. rewrite map_app, rev_app_distr. cbn [map rev app].
    unfold is_sep, slash, backslash.
    apply N.eqb_neq in B1, B2. rewrite !B2, !B1. cbn [orb]. rewrite map_app. cbn [map]. now rewrite B2. }
  rewrite E. unfold expand_path. rewrite Hw. cbn [bind]. eexists. split; [reflexivity|]. split; [now constructor|].
  intros ->. reflexivity.
Qed.
Print Assumptions C73_destination_one_slash.

(** ** Claims that do not hold *)

(** A destination that is a symbolic link to a directory is not searched: it counts as
    empty, although files written to it end up in the directory the link points to. *)
Theorem C73_symlinked_destination_refuted :
  forall fs base p ptr recursive rules s,
  one_slash base p -> fs p = Link ->
  add_files fs base ptr recursive rules s = Ok s.
Proof.
  intros fs base p ptr recursive rules s O F. unfold add_files, search_files, nftw.
  destruct (one_slash_ends _ _ O) as (q & E0). destruct base as [|b0 base'] eqn:Eb; [destruct q; discriminate|].
  rewrite <- Eb in *. rewrite (strip_one _ _ O), F. reflexivity.
Qed.
Print Assumptions C73_symlinked_destination_refuted.

(** A destination that is a file, a device, ... makes std::string::substr throw. *)
Theorem C73_file_as_destination_refuted :
  forall fs base p ptr recursive rules s mt sz,
  one_slash base p -> base <> [47] -> fs p = Other mt sz ->
  add_files fs base ptr recursive rules s = UB.
Proof.
  intros fs base p ptr recursive rules s mt sz O Nb F. unfold add_files, search_files, nftw.
  destruct (one_slash_ends _ _ O) as (q & E0). destruct base as [|b0 base'] eqn:Eb; [destruct q; discriminate|].
  rewrite <- Eb in *. rewrite (strip_one _ _ O), F. cbn [ftw_handler]. unfold add_handler.
  assert (L : (length (firstn (base_of p) p) < length base)%nat).
  { destruct O as [|r c Hc]; [contradiction|]. rewrite firstn_length, !app_length. cbn. lia. }
  apply Nat.ltb_lt in L. rewrite L. reflexivity.
Qed.
Print Assumptions C73_file_as_destination_refuted.

(** With more than one trailing slash the directories that nftw reports are shorter than
    the base directory: substr throws for the first file or directory found. *)
Lemma drop_more k l : l <> [] -> drop_slashes (repeat 47 k ++ l) = drop_slashes l.
Proof.
  intros Hl. induction k as [|k IH]; [reflexivity|]. cbn [repeat app drop_slashes].
  destruct (repeat 47 k ++ l) as [|x y] eqn:E; [destruct k, l; discriminate || contradiction|]. rewrite <- E in *. exact IH.
Qed.
Lemma rev_repeat' {B} (x : B) k : rev (repeat x k) = repeat x k.
Proof.
  induction k as [|k IH]; [reflexivity|]. cbn [repeat rev]. rewrite IH. clear.
  induction k as [|k IH]; [reflexivity|]. cbn. now f_equal.
Qed.
Theorem C73_two_slashes_refuted :
  forall fs base p k mt t ptr recursive rules s l m z,
  one_slash base p -> fs p = Dir mt (Opened t) -> searchable t -> good_names t ->
  at_path t l (Other m z) -> recursive = true \/ length l = 1%nat ->
  add_files fs (base ++ repeat 47 (S k)) ptr recursive rules s = UB.
Proof.
  intros fs base p k mt t ptr recursive rules s l m z O F S G Hp Hr. unfold add_files, search_files, nftw.
  destruct (one_slash_ends _ _ O) as (q & E0).
  assert (Es : strip (base ++ repeat 47 (Datatypes.S k)) = p).
  { rewrite <- (strip_one _ _ O). unfold strip. rewrite rev_app_distr, rev_repeat'. f_equal. apply drop_more.
    rewrite E0, rev_app_distr. discriminate. }
  destruct (base ++ repeat 47 (Datatypes.S k)) as [|b0 base'] eqn:Eb; [destruct base; discriminate|].
  rewrite <- Eb in *. rewrite Es, F, walk_dir_opened. cbn [ftw_handler].
  change (Nat.ltb 0 0) with false. cbn [andb bind].
  rewrite firstn_skipn_base, (sub_root _ _ O), (walk_calls _ recursive t G base 0 s).
  pose proof (at_path_names _ _ _ G Hp) as [Fn Nn]. destruct (exists_last Nn) as (l' & n & El). subst l.
  assert (I : In (base ++ rel l', n, m, z, false) (fst (calls recursive base t))).
  { apply calls_in; [exact S|]. exists l', n, (Other m z). split; [exact Hp|]. split; [reflexivity|].
    destruct Hr as [Hr|Hr]; [now left|right]. rewrite app_length in Hr. cbn in Hr. destruct l'; [reflexivity|cbn in Hr; lia]. }
  (* the first call is for an entry of the directory itself *)
  assert (First : exists n1 mt1 sz1 b1 L, fst (calls recursive base t) = (base, n1, mt1, sz1, b1) :: L).
  { clear - I S. revert S I. generalize (base ++ rel l', n, m, z, false). intros c. revert c.
    induction t as [|x nd r IHn IHr] using tree_ind2; intros c S I; [contradiction|].
    rewrite (calls_cons recursive base x nd r) in * by now apply calls_ok.
    apply everywhere_inv in S. destruct S as (Sn & Ss & Sr).
    assert (Q : In c (fst (calls recursive base r)) ->
      exists n1 mt1 sz1 b1 L, [] ++ fst (calls recursive base r) = (base, n1, mt1, sz1, b1) :: L) by (intros X; exact (IHr c Sr X)).
    destruct (list_eq_dec N.eq_dec x [46]); [auto|]. destruct (list_eq_dec N.eq_dec x [46; 46]); [auto|].
    destruct nd as [e|mt sz| |mt [e|t']]; auto; cbn [app]; do 5 eexists; reflexivity. }
  destruct First as (n1 & mt1 & sz1 & b1 & L & ->). cbn [make_calls]. unfold add_handler at 1.
  assert (Lt : (length base < length (base ++ repeat 47%N (Datatypes.S k)))%nat) by (rewrite app_length; cbn; lia).
  apply Nat.ltb_lt in Lt. rewrite Lt. reflexivity.
Qed.
Print Assumptions C73_two_slashes_refuted.

(** ** A concrete case
    "/d/" with: ".", ".." (what these stand for does not matter); a file "a"; a symbolic link "l"; an unreadable directory "u";
    a directory "s" with a file "b" and an empty directory "e"; a file "x.o".
    The rule excludes everything that ends in ".o". *)
Definition ex_tree : tree :=
  Entry [46] (Dir 1 (Opened Nil)) (Entry [46; 46] (Dir 1 (Opened Nil)) (
  Entry [97] (Other 7 100) (Entry [108] Link (Entry [117] (Dir 2 (OpenErr 13)) (
  Entry [115] (Dir 3 (Opened (Entry [98] (Other 8 200) (Entry [101] (Dir 4 (Opened Nil)) Nil)))) (
  Entry [120; 46; 111] (Other 9 300) Nil)))))).
Definition ex_fs (p : str) : node :=
  if seqb p [47; 100] then Dir 0 (Opened ex_tree)
  else if seqb p [47; 108] then Link
  else if seqb p [47; 99] then Dir 0 (Opened (Entry [97] (Other 1 1) (Entry [99] (Other 2 2) Nil)))
  else NoStat 2.
Definition ex_rules : list rule := [{| r_type := Exclude; r_pattern := [42; 46; 111] |}].

Example ex_hypotheses :
  one_slash [47; 100; 47] [47; 100] /\ ex_fs [47; 100] = Dir 0 (Opened ex_tree) /\
  searchable ex_tree /\ good_names ex_tree /\ distinct ex_tree /\ safe_rules ex_rules.
Proof.
  split; [apply (os_dir [47] 100); discriminate|].
  split; [reflexivity|]. split; [cbn; intuition|]. split.
  { unfold good_names, good_name. cbn. repeat split; intuition discriminate. }
  split; [cbn; intuition discriminate|].
  constructor; [|constructor]. split; [intros [H|[H|[H|[]]]]; discriminate|]. cbn. intuition.
Qed.

Example ex_recursive : find_files ex_fs [47; 100; 47] [] 1 2 true ex_rules =
  Ok ([mk_finfo [97] 7 100 kInvalidIndex 1; mk_finfo [115; 47; 98] 8 200 kInvalidIndex 1],
      [mk_dinfo [115] kInvalidIndex 1; mk_dinfo [115; 47; 101] kInvalidIndex 1]).
Proof. vm_compute. reflexivity. Qed.
Example ex_flat_copy : find_files ex_fs [47; 100; 47] [47; 99; 47] 1 2 false ex_rules =
  Ok ([mk_finfo [97] 7 100 kInvalidIndex 1; mk_finfo [99] 2 2 kInvalidIndex 2],
      [mk_dinfo [115] kInvalidIndex 1]).
Proof. vm_compute. reflexivity. Qed.

(** A subdirectory that vanishes between the listing and its opening is not an error but
    ends the search: files that exist, and come later, are missed. *)
Theorem C73_vanished_directory_refuted :
  exists fs base p mt t, one_slash base p /\ fs p = Dir mt (Opened t) /\ good_names t /\ distinct t /\
  file_of true [] t [97] 1 1 /\
  add_files fs base 1 true [] ([], []) = Ok ([], []).
Proof.
  exists (fun _ => Dir 0 (Opened (Entry [118] (Dir 0 (OpenErr 2)) (Entry [97] (Other 1 1) Nil)))), [47; 100; 47], [47; 100], 0%Z,
    (Entry [118] (Dir 0 (OpenErr 2)) (Entry [97] (Other 1 1) Nil)).
  split; [apply (os_dir [47] 100); discriminate|]. split; [reflexivity|].
  split; [unfold good_names, good_name; cbn; intuition discriminate|]. split; [cbn; intuition discriminate|].
  split; [|vm_compute; reflexivity].
  exists [[97]]. split; [|split; [reflexivity|split; [now left|constructor]]].
  apply at_direct; [constructor; constructor|]. intros [|]; discriminate.
Qed.
Print Assumptions C73_vanished_directory_refuted.

(** A destination that wordexp rejects (an unquoted "(", "&", "|", ";", "<", ">", "{" or
    an unbalanced quote) reads an uninitialised structure; one with a space is taken for
    several words; the copy-dest directory is not expanded at all; "~" of a user whose
    home directory is "/" gives two slashes. *)
Theorem C73_expansion_refuted :
  forall (wordexp : str -> expansion),
  (forall d c, wordexp (ensure_ends_with_sep (fix_seps d)) = ExpansionError -> set_directories wordexp d c = UB) /\
  (forall d c w1 w2 ws, wordexp (ensure_ends_with_sep (fix_seps d)) = Words (w1 :: w2 :: ws) -> set_directories wordexp d c = Fail) /\
  (forall d w, wordexp (ensure_ends_with_sep (fix_seps d)) = Words [w] ->
     set_directories wordexp d [126; 47; 120] = Ok (w, [126; 47; 120; 47])) /\
  (wordexp [126; 47] = Words [[47; 47]] -> forall c, exists cd, set_directories wordexp [126] c = Ok ([47; 47], cd)).
Proof.
  intros we. unfold set_directories, expand_path. split; [|split; [|split]].
  - intros d c ->. reflexivity.
  - intros d c w1 w2 ws ->. reflexivity.
  - intros d w ->. reflexivity.
  - intros H c. change (ensure_ends_with_sep (fix_seps [126])) with [126; 47]. rewrite H. cbn. eauto.
Qed.
Print Assumptions C73_expansion_refuted.

(** The hypotheses of C73_sync_search_agrees for a file "a" and a directory "s" with a
    file "b". *)
Definition ex_tree2 : tree :=
  Entry [97] (Other 7 2) (Entry [115] (Dir 3 (Opened (Entry [98] (Other 8 1) Nil))) Nil).
Definition ex_sync : ModelSync.fs :=
  [([97], ModelSync.NFile (ModelSync.mk_file [1; 2] 7 420)); ([115], ModelSync.NDir);
   ([115; 47; 98], ModelSync.NFile (ModelSync.mk_file [3] 8 420))].
Lemma ex_tree2_paths l nd : at_path ex_tree2 l nd <->
  (l = [[97]] /\ nd = Other 7 2) \/
  (l = [[115]] /\ nd = Dir 3 (Opened (Entry [98] (Other 8 1) Nil))) \/
  (l = [[115]; [98]] /\ nd = Other 8 1).
Proof.
  split.
  - intros H. destruct l as [|x l] using rev_ind; [inversion H|]. clear IHl.
    apply at_path_inv in H. destruct H as [(-> & He & _)|(y & l' & mt & t' & -> & He & _ & Hl)].
    + apply entry_inv in He. destruct He as [(-> & ->)|He]; [auto|].
      apply entry_inv in He. destruct He as [(-> & ->)|He]; [auto|inversion He].
    + apply entry_inv in He. destruct He as [(_ & X)|He]; [discriminate|].
      apply entry_inv in He. destruct He as [(-> & X)|He]; [|inversion He]. injection X as -> ->.
      apply at_path_inv in Hl. destruct Hl as [(-> & He & _)|(z & l'' & mt' & t'' & _ & He & _)].
      * apply entry_inv in He. destruct He as [(-> & ->)|He]; [auto|inversion He].
      * apply entry_inv in He. destruct He as [(_ & X)|He]; [discriminate|inversion He].
  - assert (Nd : forall x, x <> 46 -> ~ dot_or_dotdot [x]) by (intros x Hx [X|X]; [injection X as ->; contradiction|discriminate]).
    intros [(-> & ->)|[(-> & ->)|(-> & ->)]].
    + apply at_direct; [constructor|now apply Nd].
    + apply at_direct; [repeat constructor|now apply Nd].
    + eapply at_below; [constructor; constructor|now apply Nd|]. apply at_direct; [constructor|now apply Nd].
Qed.
Example ex_sync_hypotheses :
  searchable ex_tree2 /\ good_names ex_tree2 /\ safe_rules [] /\
  (forall q, (fun _ : str => true) q = true <-> filter_spec [] q true) /\
  (forall q f, In (q, ModelSync.NFile f) ex_sync -> exists l, q = slashed l /\
     at_path ex_tree2 l (Other (ModelSync.f_mtime f) (N.of_nat (length (ModelSync.f_data f))))) /\
  (forall l m z, at_path ex_tree2 l (Other m z) -> exists f, In (slashed l, ModelSync.NFile f) ex_sync /\
     m = ModelSync.f_mtime f /\ z = N.of_nat (length (ModelSync.f_data f))) /\
  (forall q, In (q, ModelSync.NDir) ex_sync <-> exists l m t', q = slashed l /\ at_path ex_tree2 l (Dir m (Opened t'))).
Proof.
  split; [cbn; intuition|]. split; [unfold good_names, good_name; cbn; intuition discriminate|]. split; [constructor|].
  split; [intros q; split; [constructor|reflexivity]|]. split; [|split].
  - intros q f [H|[H|[H|[]]]]; try discriminate H; injection H as <- <-; cbn [ModelSync.f_mtime ModelSync.f_data length].
    + exists [[97]]. split; [reflexivity|]. apply ex_tree2_paths. auto.
    + exists [[115]; [98]]. split; [reflexivity|]. apply ex_tree2_paths. auto.
  - intros l m z H. apply ex_tree2_paths in H. destruct H as [(-> & E)|[(-> & E)|(-> & E)]]; try discriminate E; injection E as -> ->.
    + exists (ModelSync.mk_file [1; 2] 7 420). cbn. auto.
    + exists (ModelSync.mk_file [3] 8 420). cbn. auto.
  - intros q. split.
    + intros [H|[H|[H|[]]]]; try discriminate H. injection H as <-.
      exists [[115]], 3%Z, (Entry [98] (Other 8 1) Nil). split; [reflexivity|]. apply ex_tree2_paths. auto.
    + intros (l & m & t' & -> & H). apply ex_tree2_paths in H. destruct H as [(-> & E)|[(-> & E)|(-> & E)]]; try discriminate E. cbn. auto.
Qed.
