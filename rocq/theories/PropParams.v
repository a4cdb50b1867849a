(** C54: cdc_rsync's command line (cdc_rsync/params.cc). *)
From Verif Require Import Base ListX ParamTypes SpecQuote ModelQuote PropQuote SpecParams ModelParams.
Local Open Scope N_scope.
Local Notation str := (list N).

(** * Files with one entry per line *)
Lemma is_space_white c : is_space c = white c.
Proof. unfold is_space, white. lia. Qed.
Lemma strip_leading_eq s : strip_leading s = drop_white s.
Proof. induction s as [|c s IH]; [reflexivity|]. cbn. rewrite is_space_white, IH. reflexivity. Qed.
Lemma strip_eq s : strip s = trim s.
Proof. unfold strip, trim. now rewrite !strip_leading_eq. Qed.
Lemma drop_white_snoc s c : drop_white (s ++ [c]) = match drop_white s with [] => if white c then [] else [c] | d => d ++ [c] end.
Proof. induction s as [|d s IH]; [reflexivity|]. cbn [app drop_white]. destruct (white d); [exact IH|reflexivity]. Qed.
Lemma trim_snoc s c : white c = true -> trim (s ++ [c]) = trim s.
Proof.
  intros W. unfold trim. rewrite drop_white_snoc, W. destruct (drop_white s) as [|d r]; [reflexivity|].
  rewrite rev_app_distr. cbn [rev app drop_white]. now rewrite W.
Qed.
Lemma cut_cons s : exists x t, cut 10 s = x :: t.
Proof. induction s as [|c s (x & t & IH)]; cbn [cut]; [eauto|]. destruct (c =? 10); [eauto|]. rewrite IH. eauto. Qed.
Lemma carriage (cur : str) : trim (match rev cur with 13 :: _ => removelast cur | _ => cur end) = trim cur.
Proof.
  destruct (rev cur) as [|c r] eqn:E; [reflexivity|]. assert (C : cur = rev r ++ [c]) by (rewrite <- (rev_involutive cur), E; reflexivity).
  destruct (N.eq_dec c 13) as [->|Nc].
  - rewrite C, removelast_last. symmetry. now apply trim_snoc.
  - destruct c as [|p]; [reflexivity|]. repeat (destruct p as [p|p|]; try reflexivity). now elim Nc.
Qed.
Lemma split_lines_cut s : forall cur x t, cut 10 s = x :: t -> map strip (split_lines cur s) = trim (cur ++ x) :: map trim t.
Proof.
  induction s as [|c s IH]; intros cur x t E; cbn [cut] in E; cbn [split_lines].
  - injection E as <- <-. cbn. rewrite app_nil_r, strip_eq. reflexivity.
  - destruct (c =? 10).
    + injection E as <- <-. destruct (cut_cons s) as (x & t & C). cbn [map]. rewrite (IH [] x t C), C, strip_eq, carriage, app_nil_r. reflexivity.
    + destruct (cut_cons s) as (y & u & C). rewrite C in E. injection E as <- <-. rewrite (IH (cur ++ [c]) y u C), <- app_assoc. reflexivity.
Qed.
Lemma read_entries w f : read_all_lines w f = match w_file w f with Some t => Some (entries t) | None => None end.
Proof.
  unfold read_all_lines. destruct (w_file w f) as [t|]; [|reflexivity]. unfold entries. f_equal.
  destruct (cut_cons t) as (x & u & C). rewrite (split_lines_cut t [] x u C), C. cbn [app map]. apply filter_ext. intros a. destruct a; reflexivity.
Qed.

(** * Destinations *)
Lemma find_char_span c s : find_char c s = match span (fun d => negb (d =? c)) s with (a, _ :: _) => Some (length a) | (_, []) => None end.
Proof.
  induction s as [|d s IH]; [reflexivity|]. cbn [find_char span]. destruct (d =? c); [reflexivity|]. cbn [negb]. rewrite IH.
  destruct (span (fun d => negb (d =? c)) s) as (a & [|x b]); reflexivity.
Qed.
Lemma drive_local s : match get_drive_prefix s with [] => false | _ => true end = local s.
Proof.
  destruct s as [|c0 r]; [reflexivity|]. unfold get_drive_prefix. destruct (c0 =? 92) eqn:E0; cbn [negb].
  - apply N.eqb_eq in E0. subst c0. destruct r as [|c1 r]; [reflexivity|]. destruct (c1 =? 92) eqn:E1; cbn [negb].
    + apply N.eqb_eq in E1. subst c1. unfold find_from. cbn [skipn]. rewrite find_char_span.
      change (local (92 :: 92 :: r)) with (match span (fun c => negb (c =? 92)) r with (_ :: _, _ :: d :: _) => negb (d =? 92) | _ => false end).
      destruct (span_spec (fun c => negb (c =? 92)) r) as (a & b & Sp & Er & Fa & Hb). rewrite Sp.
      destruct b as [|x b]; [destruct a; reflexivity|]. destruct a as [|y a]; [reflexivity|].
      assert (L3 : (2 + length (y :: a) <? 3)%nat = false) by (apply Nat.ltb_ge; cbn; lia). rewrite L3. cbn [orb].
      destruct b as [|d b].
      * assert (Le : Nat.eqb (length (92 :: 92 :: r)) (2 + length (y :: a) + 1)%nat = true) by (apply Nat.eqb_eq; rewrite Er; cbn [length app]; rewrite app_length; cbn [length]; lia). rewrite Le. reflexivity.
      * assert (Le : Nat.eqb (length (92 :: 92 :: r)) (2 + length (y :: a) + 1)%nat = false) by (apply Nat.eqb_neq; rewrite Er; cbn [length app]; rewrite app_length; cbn [length]; lia). rewrite Le.
        assert (Sk : skipn (2 + length (y :: a) + 1) (92 :: 92 :: r) = d :: b).
        { replace (2 + length (y :: a) + 1)%nat with (S (S (length (y :: a) + 1))) by lia. cbn [skipn]. rewrite Er, skipn_app, skipn_all2 by lia. replace (length (y :: a) + 1 - length (y :: a))%nat with 1%nat by lia. reflexivity. }
        rewrite Sk. cbn [find_char]. destruct (d =? 92).
        -- assert (L4 : (2 + length (y :: a) + 1 + 0 <? 2 + length (y :: a) + 2)%nat = true) by (apply Nat.ltb_lt; lia). rewrite L4. reflexivity.
        -- destruct (find_char 92 b) as [n|]; [|reflexivity]. assert (L4 : (2 + length (y :: a) + 1 + S n <? 2 + length (y :: a) + 2)%nat = false) by (apply Nat.ltb_ge; lia). rewrite L4. reflexivity.
    + assert (F : c1 <> 92) by now apply N.eqb_neq. destruct c1 as [|p]; [reflexivity|]. repeat (destruct p as [p|p|]; try reflexivity). now elim F.
  - assert (L : local (c0 :: r) = match r with 58 :: _ => negb (c0 =? 58) | _ => false end).
    { assert (F : c0 <> 92) by now apply N.eqb_neq.
      transitivity (match r with 58 :: _ => negb (c0 =? 92) && negb (c0 =? 58) | _ => false end); [|rewrite E0; reflexivity].
      destruct c0 as [|p]; [reflexivity|]. repeat (destruct p as [p|p|]; try reflexivity). now elim F. }
    rewrite L. unfold find_from. cbn [skipn find_char]. destruct (c0 =? 58); [destruct r as [|c1 r]; [reflexivity|]; destruct c1 as [|p]; [reflexivity|]; repeat (destruct p as [p|p|]; try reflexivity)|].
    destruct r as [|c1 r]; [reflexivity|]. cbn [find_char]. destruct (c1 =? 58) eqn:E1.
    + apply N.eqb_eq in E1. subst c1. reflexivity.
    + assert (F : c1 <> 58) by now apply N.eqb_neq.
      assert (X : match c1 :: r with 58 :: _ => negb false | _ => false end = false) by (destruct c1 as [|p]; [reflexivity|]; repeat (destruct p as [p|p|]; try reflexivity); now elim F).
      rewrite X. destruct (find_char 58 r); reflexivity.
Qed.
Lemma pop_spec p : pop_user_host p = set_user_host (fst (host_and_path (p_destination p))) (set_destination (snd (host_and_path (p_destination p))) p).
Proof.
  unfold pop_user_host, host_and_path. rewrite <- drive_local. destruct (get_drive_prefix (p_destination p)); [|destruct p; reflexivity].
  rewrite find_char_span. destruct (span_spec (fun d => negb (d =? 58)) (p_destination p)) as (a & b & Sp & E & _ & _). rewrite Sp.
  destruct b as [|x b]; [destruct p; reflexivity|]. cbn [fst snd]. rewrite E. rewrite firstn_app, firstn_all, Nat.sub_diag. cbn [firstn]. rewrite app_nil_r.
  replace (skipn (S (length a)) (a ++ x :: b)) with b; [reflexivity|].
  rewrite skipn_app, skipn_all2 by lia. replace (S (length a) - length a)%nat with 1%nat by lia. reflexivity.
Qed.
Lemma separator_spec d : d <> [] -> ensure_ends d = with_separator d.
Proof.
  intros H. destruct (exists_last H) as (r & c & ->). unfold ensure_ends, with_separator. rewrite rev_app_distr, last_last. cbn [rev app]. destruct (r ++ [c]) eqn:E; [destruct r; discriminate|]. reflexivity.
Qed.

(** * The loop over the arguments *)
Lemma given_app f a b : given f (a ++ b) = given f a || given f b.
Proof. apply existsb_app. Qed.
Lemma times_app f a b : times f (a ++ b) = (times f a + times f b)%nat.
Proof. unfold times. rewrite filter_app, app_length. reflexivity. Qed.
Lemma values_app o a b : values o (a ++ b) = values o a ++ values o b.
Proof. apply flat_map_app. Qed.
Lemma args_app a b : args (a ++ b) = args a ++ args b.
Proof. apply flat_map_app. Qed.
Lemma rules_app w a b : rules w (a ++ b) = match rules w a, rules w b with Some x, Some y => Some (x ++ y) | _, _ => None end.
Proof.
  induction a as [|i a IH]; cbn [app rules]; [now destruct (rules w b)|]. rewrite IH. destruct (item_rules w i); [|reflexivity]. destruct (rules w a); [|reflexivity]. destruct (rules w b); [|reflexivity].
  now rewrite app_assoc.
Qed.

(** The parameters after the items [l] (with the filter rules [r]). *)
Definition intended (w : world) (r : list (bool * str)) (l : list item) : params :=
  {| p_delete := given Delete l; p_recursive := given Recursive l; p_verbosity := times Verbose l; p_quiet := given Quiet l;
     p_whole_file := given WholeFile l; p_relative := given Relative l || negb (length (values FilesFrom l) =? 0)%nat;
     p_compress := given Compress l; p_checksum := given Checksum l; p_dry_run := given DryRun l;
     p_existing := given Existing l; p_json := given Json l; p_copy_dest := last (values CopyDest l) [];
     p_level := match rev (values CompressLevel l) with v :: _ => w_atoi w v | [] => 6%Z end;
     p_timeout := match rev (values ConTimeout l) with v :: _ => w_atoi w v | [] => 10%Z end;
     p_ssh := last (values SshCommand l) (w_env_ssh w); p_sftp := last (values SftpCommand l) (w_env_sftp w);
     p_scp := last (values ScpCommand l) (w_env_scp w); p_sources_dir := [];
     p_filter := r; p_sources := filter nonempty (removelast (args l)); p_user_host := []; p_destination := last (args l) [];
     p_files_from := last (values FilesFrom l) [] |}.

Lemma nz n : negb (n + 1 =? 0)%nat = true.
Proof. rewrite Nat.add_1_r. reflexivity. Qed.
Ltac snoc_fields :=
  unfold intended; rewrite !given_app, !times_app, !values_app, !args_app;
  cbn [given times values args existsb filter flat_map flag_eq_dec opt_eq_dec flag_rec flag_rect opt_rec opt_rect app length orb];
  rewrite ?app_nil_r, ?orb_false_r, ?orb_true_r, ?Nat.add_0_r, ?last_last, ?removelast_last, ?rev_unit, ?app_length.


Lemma flag_long w f value r l :
  handle_parameter w (long f) value (intended w r l) (given Help l) = ((ConsumedKey, intended w r (l ++ [Flag f])), given Help (l ++ [Flag f])).
Proof. destruct f; snoc_fields; cbn [long]; (set (X := handle_parameter _ _ _ _ _); cbn in X; subst X); rewrite ?Nat.add_1_r; reflexivity. Qed.
Lemma flag_short w f c value r l : short f = Some c ->
  handle_parameter w [c] value (intended w r l) (given Help l) = ((ConsumedKey, intended w r (l ++ [Flag f])), given Help (l ++ [Flag f])).
Proof. destruct f; intros S; try discriminate; injection S as <-; snoc_fields; (set (X := handle_parameter _ _ _ _ _); cbn in X; subst X); rewrite ?Nat.add_1_r; reflexivity. Qed.
Lemma help_opt l o v : given Help (l ++ [Opt o v]) = given Help l.
Proof. rewrite given_app. apply orb_false_r. Qed.
Lemma rule_file w v b r l : handle_filter_rule_file w v b (intended w r l) =
  match w_file w v with Some t => (ConsumedKeyValue, set_filter (r ++ map (pair b) (entries t)) (intended w r l)) | None => (Err, intended w r l) end.
Proof. unfold handle_filter_rule_file. rewrite read_entries. destruct (w_file w v); reflexivity. Qed.
Lemma opt_handled w o v r l :
  handle_parameter w (opt_name o) (Some v) (intended w r l) (given Help l) =
  (match item_rules w (Opt o v) with Some x => (ConsumedKeyValue, intended w (r ++ x) (l ++ [Opt o v])) | None => (Err, intended w r l) end, given Help (l ++ [Opt o v])).
Proof.
  rewrite help_opt. destruct o.
  - snoc_fields; cbn [opt_name item_rules]; (set (X := handle_parameter _ _ _ _ _); cbn in X; subst X); reflexivity.
  - cbn [opt_name item_rules]. change (handle_parameter w (lit "exclude-from") (Some v) (intended w r l) (given Help l)) with (handle_filter_rule_file w v false (intended w r l), given Help l).
    rewrite rule_file. destruct (w_file w v); [|reflexivity]. snoc_fields. reflexivity.
  - snoc_fields; cbn [opt_name item_rules]; (set (X := handle_parameter _ _ _ _ _); cbn in X; subst X); reflexivity.
  - cbn [opt_name item_rules]. change (handle_parameter w (lit "include-from") (Some v) (intended w r l) (given Help l)) with (handle_filter_rule_file w v true (intended w r l), given Help l).
    rewrite rule_file. destruct (w_file w v); [|reflexivity]. snoc_fields. reflexivity.
  - snoc_fields; cbn [length]; rewrite ?nz, ?orb_true_r; cbn [opt_name item_rules]; (set (X := handle_parameter _ _ _ _ _); cbn in X; subst X); rewrite ?app_nil_r; reflexivity.
  - snoc_fields; cbn [opt_name item_rules]; (set (X := handle_parameter _ _ _ _ _); cbn in X; subst X); rewrite ?app_nil_r; reflexivity.
  - snoc_fields; cbn [opt_name item_rules]; (set (X := handle_parameter _ _ _ _ _); cbn in X; subst X); rewrite ?app_nil_r; reflexivity.
  - snoc_fields; cbn [opt_name item_rules]; (set (X := handle_parameter _ _ _ _ _); cbn in X; subst X); rewrite ?app_nil_r; reflexivity.
  - snoc_fields; cbn [opt_name item_rules]; (set (X := handle_parameter _ _ _ _ _); cbn in X; subst X); rewrite ?app_nil_r; reflexivity.
  - snoc_fields; cbn [opt_name item_rules]; (set (X := handle_parameter _ _ _ _ _); cbn in X; subst X); rewrite ?app_nil_r; reflexivity.
  - snoc_fields; cbn [opt_name item_rules]; (set (X := handle_parameter _ _ _ _ _); cbn in X; subst X); rewrite ?app_nil_r; reflexivity.
  - snoc_fields; cbn [opt_name item_rules]; (set (X := handle_parameter _ _ _ _ _); cbn in X; subst X); rewrite ?app_nil_r; reflexivity.
Qed.

Lemma no_equals_long f : find_equals (long f) = None.
Proof. destruct f; reflexivity. Qed.
Lemma no_equals_opt o : find_equals (opt_name o) = None.
Proof. destruct o; reflexivity. Qed.
Lemma equals_long f v : find_equals (long f ++ 61 :: v) = Some (long f, v).
Proof. destruct f; reflexivity. Qed.
Lemma equals_opt o v : find_equals (opt_name o ++ 61 :: v) = Some (opt_name o, v).
Proof. destruct o; reflexivity. Qed.

Definition value_of (v : str) : option str := match v with [] => None | _ => Some v end.
Definition value_next (v : str) : option str := match v with 45 :: _ => None | _ => Some v end.
Lemma value_next_ok v : no_dash v -> value_next v = Some v.
Proof. intros H. destruct v as [|c r]; [reflexivity|]. cbn in H. destruct c as [|p]; [reflexivity|]. repeat (destruct p as [p|p|]; try reflexivity). now elim H. Qed.
Lemma value_next_dash v : ~ no_dash v -> value_next v = None.
Proof. intros H. destruct v as [|c r]; [elim H; exact Logic.I|]. destruct (N.eq_dec c 45) as [->|D]; [reflexivity|now elim H]. Qed.

Lemma loop_eq w key k v rest p h : find_equals key = Some (k, v) ->
  parse_loop w (([45; 45] ++ key) :: rest) p h =
  let '(result, p1, help1) := handle_parameter w k (value_of v) p h in if check_option_result result (value_of v) then parse_loop w rest p1 help1 else None.
Proof. intros E. cbn [app parse_loop]. rewrite E. reflexivity. Qed.
Lemma loop_next w key next rest p h : find_equals key = None ->
  parse_loop w (([45; 45] ++ key) :: next :: rest) p h =
  let '(result, p1, help1) := handle_parameter w key (value_next next) p h in
  if check_option_result result (value_next next)
  then match result with ConsumedKeyValue => parse_loop w rest p1 help1 | _ => parse_loop w (next :: rest) p1 help1 end
  else None.
Proof. intros E. cbn [app parse_loop]. rewrite E. reflexivity. Qed.
Lemma loop_last w key p h : find_equals key = None ->
  parse_loop w [[45; 45] ++ key] p h =
  let '(result, p1, help1) := handle_parameter w key None p h in if check_option_result result None then Some (p1, help1) else None.
Proof. intros E. cbn [app parse_loop]. rewrite E. reflexivity. Qed.
Lemma loop_short w cs rest p h : match cs with c :: _ => c <> 45 | [] => True end ->
  parse_loop w ((45 :: cs) :: rest) p h = match short_options w cs p h with Some (p1, help1) => parse_loop w rest p1 help1 | None => None end.
Proof. intros H. destruct cs as [|c cs]; [reflexivity|]. destruct c as [|q]; [reflexivity|]. repeat (destruct q as [q|q|]; try reflexivity). now elim H. Qed.
Lemma loop_arg w s rest p h : no_dash s ->
  parse_loop w (s :: rest) p h = parse_loop w rest (set_destination s (match p_destination p with [] => p | d => set_sources (p_sources p ++ [d]) p end)) h.
Proof. intros H. destruct s as [|c s]; [reflexivity|]. cbn in H. destruct c as [|q]; [reflexivity|]. repeat (destruct q as [q|q|]; try reflexivity). now elim H. Qed.

Lemma arg_handled w s r l :
  set_destination s (match p_destination (intended w r l) with [] => intended w r l | d => set_sources (p_sources (intended w r l) ++ [d]) (intended w r l) end) = intended w r (l ++ [Arg s]).
Proof.
  assert (A : filter nonempty (args l) = match last (args l) [] with [] => filter nonempty (removelast (args l)) | d => filter nonempty (removelast (args l)) ++ [d] end).
  { destruct (args l) as [|a0 r0] eqn:E; [reflexivity|]. destruct (exists_last (l:=a0 :: r0) ltac:(discriminate)) as (x & d & X). rewrite X, last_last, removelast_last, filter_app. cbn [filter]. destruct d; cbn; [now rewrite app_nil_r|reflexivity]. }
  snoc_fields. cbn [p_destination]. rewrite A. destruct (last (args l) []); reflexivity.
Qed.

Lemma short_handled w fs cs : Forall2 (fun f c => short f = Some c) fs cs -> forall r l,
  short_options w cs (intended w r l) (given Help l) = Some (intended w r (l ++ map Flag fs), given Help (l ++ map Flag fs)).
Proof.
  induction 1 as [|f c fs cs S _ IH]; intros r l; [cbn; now rewrite app_nil_r|]. cbn [short_options]. rewrite (flag_short w f c None r l S). cbn [check_option_result].
  rewrite IH. rewrite <- app_assoc. reflexivity.
Qed.
Lemma rules_flags w fs : rules w (map Flag fs) = Some [].
Proof. induction fs as [|f fs IH]; [reflexivity|]. cbn. now rewrite IH. Qed.
Lemma rules_snoc w r l i x : rules w l = Some r -> item_rules w i = Some x -> rules w (l ++ [i]) = Some (r ++ x).
Proof. intros A B. rewrite rules_app, A. cbn [rules]. rewrite B, app_nil_r. reflexivity. Qed.
Lemma rules_snoc_nil w r l i : rules w l = Some r -> item_rules w i = Some [] -> rules w (l ++ [i]) = Some r.
Proof. intros A B. rewrite (rules_snoc w r l i [] A B). now rewrite app_nil_r. Qed.
Lemma rules_unreadable w l i l2 : item_rules w i = None -> rules w (l ++ i :: l2) = None.
Proof. intros B. rewrite rules_app. cbn [rules]. rewrite B. destruct (rules w l); reflexivity. Qed.

Lemma loop_written w lax l a : written lax l a -> forall done r, rules w done = Some r ->
  parse_loop w a (intended w r done) (given Help done) =
  match rules w (done ++ l) with Some r2 => Some (intended w r2 (done ++ l), given Help (done ++ l)) | None => None end.
Proof.
  assert (Snoc : forall done (i : item) l, done ++ i :: l = (done ++ [i]) ++ l) by (intros; now rewrite <- app_assoc).
  induction 1 as [|f l a W IH|fs cs l a Ne Sh W IH|o v l a Nv W IH|o v l a Nd W IH|s l a Nd W IH|f c l a _ S W IH|f v l a _ W IH|f c v l a _ S W IH|l a _ W IH]; intros done r R.
  - rewrite app_nil_r, R. reflexivity.
  - rewrite Snoc, <- (IH (done ++ [Flag f]) r) by (now apply rules_snoc_nil). destruct a as [|next rest].
    + rewrite loop_last by apply no_equals_long. rewrite flag_long. reflexivity.
    + rewrite loop_next by apply no_equals_long. rewrite flag_long. reflexivity.
  - rewrite loop_short. 2:{ destruct Sh as [|f c fs cs S]; [exact Logic.I|]. destruct f; try discriminate; injection S as <-; discriminate. }
    rewrite (short_handled w fs cs Sh). rewrite app_assoc. apply IH. rewrite rules_app, R, rules_flags, app_nil_r. reflexivity.
  - rewrite (loop_eq w _ (opt_name o) v) by apply equals_opt. assert (V : value_of v = Some v) by (destruct v; [contradiction|reflexivity]). rewrite V, opt_handled.
    destruct (item_rules w (Opt o v)) as [x|] eqn:X; cbn [check_option_result].
    + rewrite (Snoc done (Opt o v) l). apply IH. now apply rules_snoc.
    + now rewrite rules_unreadable.
  - rewrite loop_next by apply no_equals_opt. rewrite (value_next_ok v Nd), opt_handled.
    destruct (item_rules w (Opt o v)) as [x|] eqn:X; cbn [check_option_result].
    + rewrite (Snoc done (Opt o v) l). apply IH. now apply rules_snoc.
    + now rewrite rules_unreadable.
  - rewrite (loop_arg w s a _ _ Nd), arg_handled. rewrite (Snoc done (Arg s) l). rewrite <- (IH (done ++ [Arg s]) r) by now apply rules_snoc_nil. f_equal. rewrite given_app. symmetry. apply orb_false_r.
  - assert (Ne : find_equals [c] = None) by (destruct f; try discriminate; injection S as <-; reflexivity).
    rewrite Snoc, <- (IH (done ++ [Flag f]) r) by (now apply rules_snoc_nil). change [45; 45; c] with ([45; 45] ++ [c]). destruct a as [|next rest].
    + rewrite loop_last by exact Ne. rewrite (flag_short w f c _ _ _ S). reflexivity.
    + rewrite loop_next by exact Ne. rewrite (flag_short w f c _ _ _ S). reflexivity.
  - rewrite (loop_eq w _ (long f) v) by apply equals_long. rewrite flag_long. cbn [check_option_result]. rewrite (Snoc done (Flag f) l). apply IH. now apply rules_snoc_nil.
  - assert (Ne : find_equals ([c] ++ 61 :: v) = Some ([c], v)) by (destruct f; try discriminate; injection S as <-; reflexivity).
    change ([45; 45; c] ++ 61 :: v) with ([45; 45] ++ ([c] ++ 61 :: v)). rewrite (loop_eq w _ [c] v) by exact Ne. rewrite (flag_short w f c _ _ _ S). cbn [check_option_result]. rewrite (Snoc done (Flag f) l). apply IH. now apply rules_snoc_nil.
  - rewrite loop_short by exact Logic.I. cbn [short_options]. now apply IH.
Qed.

(** * After the loop *)
Lemma convert_unique convert s : (forall s, converts s (convert s)) -> convert s = scp_to_sftp s.
Proof.
  intros C. specialize (C s). destruct C as [(a & b & A & Mi & ->)|(No & ->)]; destruct (C53_scp_to_sftp s) as [(a2 & b2 & A2 & Mi2 & ->)|(No2 & ->)].
  - pose proof (Mi _ _ A2). pose proof (Mi2 _ _ A). destruct A as (x & E & Mx & _), A2 as (x2 & E2 & Mx2 & _).
    assert (Lx : length x = 3%nat) by (rewrite <- (map_length fold_case), Mx; reflexivity). assert (Lx2 : length x2 = 3%nat) by (rewrite <- (map_length fold_case), Mx2; reflexivity).
    rewrite E in E2. assert (La : length a = length a2) by lia.
    assert (P : forall (u v x y : str), length u = length v -> u ++ x = v ++ y -> u = v /\ x = y).
    { induction u as [|c u IH]; intros [|d v] z y Le Eq; try discriminate; [auto|]. cbn in Le, Eq. injection Eq as -> Eq. apply IH in Eq; [|lia]. destruct Eq as (-> & ->). auto. }
    destruct (P _ _ _ _ La E2) as (-> & E3). destruct (P x x2 b b2 ltac:(lia) E3) as (_ & ->). reflexivity.
  - elim (No2 _ _ A).
  - elim (No _ _ A2).
  - reflexivity.
Qed.
Lemma nonempty_eqb s : negb (nonempty s) = match s with [] => true | _ => false end.
Proof. destruct s; reflexivity. Qed.

Lemma finish_spec convert w r l : (forall s, converts s (convert s)) -> rules w l = Some r ->
  match (match p_files_from (intended w r l) with [] => Some (intended w r l) | _ => load_files_from w (intended w r l) end) with
  | None => Rejected
  | Some p1 =>
      let p2 := pop_user_host p1 in
      let p3 := match p_sftp p2, p_scp p2 with [], _ :: _ => set_sftp (scp_to_sftp (p_scp p2)) p2 | _, _ => p2 end in
      validate_parameters p3 (given Help l)
  end = expected convert w l.
Proof.
  intros C R. unfold expected. rewrite R.
  assert (L : match p_files_from (intended w r l) with [] => Some (intended w r l) | _ => load_files_from w (intended w r l) end =
              match sources w l with Some (s, d) => Some (set_sources s (set_sources_dir d (intended w r l))) | None => None end).
  { unfold sources. cbn [p_files_from intended]. destruct (last (values FilesFrom l) []) as [|c f] eqn:F; [destruct (intended w r l) eqn:I; unfold intended in I; injection I; intros; subst; reflexivity|].
    unfold load_files_from. cbn [p_sources intended p_files_from]. rewrite F. rewrite read_entries.
    assert (Ne : forall d, In d (filter nonempty (removelast (args l))) -> d <> []) by (intros d I; apply filter_In in I; destruct I as (_ & I); intros ->; discriminate).
    destruct (filter nonempty (removelast (args l))) as [|d [|d2 rest]].
    - destruct (w_file w (c :: f)); reflexivity.
    - assert (Nd : d <> []) by (apply Ne; now left). destruct (w_is_dir w d); [|destruct (w_file w (c :: f)); reflexivity].
      destruct (w_file w (c :: f)); [|reflexivity]. rewrite <- (separator_spec d Nd). destruct d; [contradiction|reflexivity].
    - destruct (w_file w (c :: f)); reflexivity. }
  rewrite L. destruct (sources w l) as [(srcs & dir)|]; [|reflexivity]. cbv zeta. rewrite pop_spec.
  change (p_destination (set_sources srcs (set_sources_dir dir (intended w r l)))) with (last (args l) []).
  destruct (host_and_path (last (args l) [])) as (host & dst). cbn [fst snd].
  change (p_sftp (set_user_host host (set_destination dst (set_sources srcs (set_sources_dir dir (intended w r l)))))) with (last (values SftpCommand l) (w_env_sftp w)).
  change (p_scp (set_user_host host (set_destination dst (set_sources srcs (set_sources_dir dir (intended w r l)))))) with (last (values ScpCommand l) (w_env_scp w)).
  rewrite (convert_unique convert _ C).
  set (sftp := last (values SftpCommand l) (w_env_sftp w)). set (scp := last (values ScpCommand l) (w_env_scp w)). set (level := match rev (values CompressLevel l) with [] => 6%Z | v :: _ => w_atoi w v end).
  unfold validate_parameters.
  assert (G : forall x, x = sftp \/ True -> forall p3,
    (p_delete p3 = given Delete l /\ p_recursive p3 = given Recursive l /\ p_level p3 = level /\ p_sources p3 = srcs /\ p_destination p3 = dst) ->
    (if given Help l then Helped
     else if p_delete p3 && negb (p_recursive p3) then Rejected
     else if ((p_level p3 <? -5)%Z || (22 <? p_level p3)%Z || (p_level p3 =? 0)%Z) then Rejected
     else match p_sources p3, p_destination p3 with [], [] => Rejected | _, [] => Rejected | [], _ => Rejected | _, _ => Accepted p3 end) =
    (if given Help l then Helped
     else if given Delete l && negb (given Recursive l) then Rejected
     else if ((level <? -5)%Z || (22 <? level)%Z || (level =? 0)%Z) then Rejected
     else if negb (nonempty dst) || (length srcs =? 0)%nat then Rejected else Accepted p3)).
  { intros _ _ p3 (A & B & D & S & T). rewrite A, B, D, S, T. destruct (given Help l); [reflexivity|]. destruct (given Delete l && negb (given Recursive l)); [reflexivity|]. destruct (_ || _); [reflexivity|]. destruct srcs, dst; reflexivity. }
  rewrite (G sftp (or_intror Logic.I)).
  2:{ destruct sftp; [destruct scp|]; repeat split. }
  destruct (given Help l); [reflexivity|]. destruct (given Delete l && negb (given Recursive l)); [reflexivity|]. destruct ((level <? -5)%Z || (22 <? level)%Z || (level =? 0)%Z); [reflexivity|].
  destruct (negb (nonempty dst) || (length srcs =? 0)%nat); [reflexivity|]. f_equal.
  lazy beta iota delta [set_sftp set_user_host set_destination set_sources set_sources_dir intended p_delete p_recursive p_verbosity p_quiet p_whole_file p_relative p_compress p_checksum p_dry_run p_existing p_json p_copy_dest p_level p_timeout p_ssh p_sftp p_scp p_sources_dir p_filter p_sources p_user_host p_destination p_files_from].
  change (last (values SftpCommand l) (w_env_sftp w)) with sftp. change (last (values ScpCommand l) (w_env_scp w)) with scp. destruct sftp; [destruct scp|]; reflexivity.
Qed.

(** A command line means what its items mean, however they are written. *)
Theorem C54_parse : forall convert, (forall s, converts s (convert s)) ->
  forall lax w l argv, written lax l argv -> argv <> [] -> parse w argv = expected convert w l.
Proof.
  intros convert C lax w l argv W Ne. unfold parse. destruct argv as [|a0 rest] eqn:E; [contradiction|]. rewrite <- E in *.
  pose proof (loop_written w lax l argv W [] [] eq_refl) as L. cbn [app] in L. change (intended w [] []) with (initial w) in L. change (given Help []) with false in L. rewrite L.
  destruct (rules w l) as [r|] eqn:R; [now apply finish_spec|]. unfold expected. now rewrite R.
Qed.

(** * Command lines that are not understood *)
Definition all_names : list str :=
  map long [Delete; Recursive; Verbose; Quiet; WholeFile; Relative; Compress; Help; Checksum; DryRun; Existing; Json] ++
  [[114]; [118]; [113]; [87]; [82]; [122]; [104]; [99]; [110]] ++
  map opt_name [Exclude; ExcludeFrom; Include; IncludeFrom; FilesFrom; CompressLevel; ConTimeout; CopyDest; SshCommand; ScpCommand; SftpCommand; ForwardPort].
Inductive key_kind (key : str) : Prop :=
| k_long f : key = long f -> key_kind key
| k_short f c : short f = Some c -> key = [c] -> key_kind key
| k_opt o : key = opt_name o -> key_kind key
| k_none : ~ In key all_names -> key_kind key.
Lemma key_cases key : key_kind key.
Proof.
  destruct (in_dec (list_eq_dec N.eq_dec) key all_names) as [I|N]; [|now apply k_none].
  unfold all_names in I. apply in_app_or in I. destruct I as [I|I]; [apply in_map_iff in I; destruct I as (f & <- & _); now apply k_long with f|].
  apply in_app_or in I. destruct I as [I|I]; [|apply in_map_iff in I; destruct I as (o & <- & _); now apply k_opt with o].
  repeat (destruct I as [<-|I]).
  - now apply k_short with Recursive 114.
  - now apply k_short with Verbose 118.
  - now apply k_short with Quiet 113.
  - now apply k_short with WholeFile 87.
  - now apply k_short with Relative 82.
  - now apply k_short with Compress 122.
  - now apply k_short with Help 104.
  - now apply k_short with Checksum 99.
  - now apply k_short with DryRun 110.
  - destruct I.
Qed.
Lemma is_false key s : ~ In key all_names -> In (lit s) all_names -> is key s = false.
Proof. intros N I. unfold is, eqb. destruct (list_eq_dec N.eq_dec key (lit s)) as [->|]; [contradiction|reflexivity]. Qed.
Lemma unknown w key value p h : ~ In key all_names -> handle_parameter w key value p h = ((Err, p), h).
Proof.
  intros N. unfold handle_parameter.
  assert (Inn : forall s, (if in_dec (list_eq_dec N.eq_dec) (lit s) all_names then true else false) = true -> is key s = false).
  { intros s H. apply is_false; [exact N|]. destruct (in_dec (list_eq_dec N.eq_dec) (lit s) all_names); [assumption|discriminate]. }
  rewrite !Inn by (vm_compute; reflexivity). reflexivity.
Qed.
Lemma flag_long_key w f value p h : exists p1 h1, handle_parameter w (long f) value p h = ((ConsumedKey, p1), h1).
Proof. destruct f; eexists _, _; reflexivity. Qed.
Lemma flag_short_key w f c value p h : short f = Some c -> exists p1 h1, handle_parameter w [c] value p h = ((ConsumedKey, p1), h1).
Proof. destruct f; intros S; try discriminate; injection S as <-; eexists _, _; reflexivity. Qed.
Lemma opt_none w o p h : exists r p1 h1, handle_parameter w (opt_name o) None p h = ((r, p1), h1) /\ check_option_result r None = false.
Proof. destruct o; eexists _, _, _; (split; [reflexivity|reflexivity]). Qed.
Lemma opt_some w o v p h : exists r p1 h1, handle_parameter w (opt_name o) (Some v) p h = ((r, p1), h1) /\ (r = ConsumedKeyValue \/ r = Err).
Proof.
  destruct o; try (eexists _, _, _; split; [reflexivity|now left]).
  - change (handle_parameter w (opt_name ExcludeFrom) (Some v) p h) with (handle_filter_rule_file w v false p, h). unfold handle_filter_rule_file. destruct (read_all_lines w v); eexists _, _, _; (split; [reflexivity|auto]).
  - change (handle_parameter w (opt_name IncludeFrom) (Some v) p h) with (handle_filter_rule_file w v true p, h). unfold handle_filter_rule_file. destruct (read_all_lines w v); eexists _, _, _; (split; [reflexivity|auto]).
Qed.
Lemma find_equals_none s : find_equals s = None \/ exists a b, find_equals s = Some (a, b) /\ s = a ++ 61 :: b.
Proof.
  induction s as [|c s [IH|(a & b & IH & E)]]; cbn [find_equals]; [now left| |].
  - destruct (c =? 61) eqn:C; [right; exists [], s; apply N.eqb_eq in C; subst c; auto|left; now rewrite IH].
  - destruct (c =? 61) eqn:C; [right; exists [], s; apply N.eqb_eq in C; subst c; auto|right; exists (c :: a), b; rewrite IH, E; auto].
Qed.
Lemma shorts_cases cs : (exists fs, Forall2 (fun f c => short f = Some c) fs cs) \/ (forall w p h, short_options w cs p h = None).
Proof.
  induction cs as [|c cs IH]; [left; exists []; constructor|].
  assert (Rec : forall w p h p1 h1, handle_parameter w [c] None p h = ((ConsumedKey, p1), h1) -> short_options w (c :: cs) p h = short_options w cs p1 h1) by (intros w p h p1 h1 E; cbn [short_options]; now rewrite E).
  assert (Bad : forall w p h r p1 h1, handle_parameter w [c] None p h = ((r, p1), h1) -> check_option_result r None = false -> short_options w (c :: cs) p h = None) by (intros w p h r p1 h1 E X; cbn [short_options]; now rewrite E, X).
  destruct (key_cases [c]) as [f E|f d S E|o E|N].
  - exfalso. destruct f; discriminate.
  - injection E as ->. destruct IH as [(fs & F)|No]; [left; exists (f :: fs); now constructor|]. right. intros w p h. destruct (flag_short_key w f d None p h S) as (p1 & h1 & H). rewrite (Rec _ _ _ _ _ H). apply No.
  - exfalso. destruct o; discriminate.
  - right. intros w p h. apply (Bad _ _ _ _ _ _ (unknown w [c] None p h N)). reflexivity.
Qed.

Lemma loop_cases n : forall argv, (length argv <= n)%nat -> (exists l, written true l argv) \/ (forall w p h, parse_loop w argv p h = None).
Proof.
  induction n as [|n IH]; intros argv Le; [destruct argv; [left; exists []; constructor|cbn in Le; lia]|].
  destruct argv as [|a rest]; [left; exists []; constructor|]. cbn [length] in Le.
  assert (IHr := IH rest ltac:(lia)).
  assert (Kind : no_dash a \/ (exists cs, a = 45 :: cs /\ match cs with c :: _ => c <> 45 | [] => True end) \/ exists key, a = [45; 45] ++ key).
  { destruct a as [|c a]; [left; exact Logic.I|]. destruct (N.eq_dec c 45) as [->|D]; [|left; exact D]. right. destruct a as [|d a]; [left; exists []; auto|]. destruct (N.eq_dec d 45) as [->|D]; [right; now exists a|left; exists (d :: a); auto]. }
  destruct Kind as [Nd|[(cs & -> & Hc)|(key & ->)]].
  - destruct IHr as [(l & W)|No]; [left; exists (Arg a :: l); now constructor|]. right. intros w p h. rewrite loop_arg by exact Nd. apply No.
  - destruct (shorts_cases cs) as [(fs & F)|No].
    + destruct IHr as [(l & W)|No]; [|right; intros w p h; rewrite loop_short by exact Hc; destruct (short_options w cs p h) as [(p1 & h1)|]; [apply No|reflexivity]].
      left. destruct fs as [|f fs]; [inversion F; subst; exists l; now constructor|]. exists (map Flag (f :: fs) ++ l). now constructor.
    + right. intros w p h. rewrite loop_short by exact Hc. now rewrite No.
  - destruct (find_equals_none key) as [Fn|(k & v & Fs & Ek)].
    + destruct (key_cases key) as [f E|f c S E|o E|N].
      * subst key. destruct IHr as [(l & W)|No]; [left; exists (Flag f :: l); now constructor|]. right. intros w p h. destruct rest as [|next rest].
        -- exfalso. specialize (No w p h). discriminate.
        -- rewrite loop_next by exact Fn. destruct (flag_long_key w f (value_next next) p h) as (p1 & h1 & H). rewrite H. cbn [check_option_result]. apply No.
      * subst key. destruct IHr as [(l & W)|No]; [left; exists (Flag f :: l); now constructor|]. right. intros w p h. destruct rest as [|next rest].
        -- exfalso. specialize (No w p h). discriminate.
        -- rewrite loop_next by exact Fn. destruct (flag_short_key w f c (value_next next) p h S) as (p1 & h1 & H). rewrite H. cbn [check_option_result]. apply No.
      * subst key. destruct rest as [|next rest].
        -- right. intros w p h. rewrite loop_last by exact Fn. destruct (opt_none w o p h) as (r & p1 & h1 & H & X). now rewrite H, X.
        -- assert (D : no_dash next \/ ~ no_dash next) by (destruct next as [|c t]; [left; exact Logic.I|]; destruct (N.eq_dec c 45); [right|left]; cbn; auto).
           destruct D as [D|D].
           ++ destruct (IH rest ltac:(cbn in Le; lia)) as [(l & W)|No]; [left; exists (Opt o next :: l); now constructor|]. right. intros w p h. rewrite loop_next by exact Fn. rewrite (value_next_ok next D).
              destruct (opt_some w o next p h) as (r & p1 & h1 & H & [->| ->]); rewrite H; cbn [check_option_result]; [apply No|reflexivity].
           ++ right. intros w p h. rewrite loop_next by exact Fn. rewrite (value_next_dash next D). destruct (opt_none w o p h) as (r & p1 & h1 & H & X). now rewrite H, X.
      * right. intros w p h. destruct rest as [|next rest]; [rewrite loop_last by exact Fn|rewrite loop_next by exact Fn]; rewrite (unknown w key _ p h N); reflexivity.
    + destruct (key_cases k) as [f E|f c S E|o E|N].
      * subst k key. destruct IHr as [(l & W)|No]; [left; exists (Flag f :: l); now apply w_long_value|]. right. intros w p h. rewrite (loop_eq w _ _ _ rest p h Fs). destruct (flag_long_key w f (value_of v) p h) as (p1 & h1 & H). rewrite H. apply No.
      * subst k key. destruct IHr as [(l & W)|No]; [left; exists (Flag f :: l); now apply (w_long_short_value true f c v)|]. right. intros w p h. rewrite (loop_eq w _ _ _ rest p h Fs). destruct (flag_short_key w f c (value_of v) p h S) as (p1 & h1 & H). rewrite H. apply No.
      * subst k key. destruct v as [|c v].
        -- right. intros w p h. rewrite (loop_eq w _ _ _ rest p h Fs). cbn [value_of]. destruct (opt_none w o p h) as (r & p1 & h1 & H & X). now rewrite H, X.
        -- destruct IHr as [(l & W)|No]; [left; exists (Opt o (c :: v) :: l); now constructor|]. right. intros w p h. rewrite (loop_eq w _ _ _ rest p h Fs). cbn [value_of].
           destruct (opt_some w o (c :: v) p h) as (r & p1 & h1 & H & [->| ->]); rewrite H; cbn [check_option_result]; [apply No|reflexivity].
      * right. intros w p h. rewrite (loop_eq w _ _ _ rest p h Fs). now rewrite (unknown w k _ p h N).
Qed.

(** Every command line is understood as a list of items, or cannot be understood as one
    (an unknown option, a missing value) and is rejected. *)
Theorem C54_understood_or_rejected : forall convert, (forall s, converts s (convert s)) -> forall w argv, argv <> [] ->
  (exists l, written true l argv /\ parse w argv = expected convert w l) \/
  ((forall l, ~ written true l argv) /\ parse w argv = Rejected).
Proof.
  intros convert C w argv Ne. destruct (loop_cases (length argv) argv (le_n _)) as [(l & W)|No].
  - left. exists l. split; [exact W|]. exact (C54_parse convert C true w l argv W Ne).
  - right. split.
    + intros l W. set (w0 := mkworld (fun _ => Some []) (fun _ => true) (fun _ => 0%Z) [] [] []).
      pose proof (loop_written w0 true l argv W [] [] eq_refl) as L. rewrite No in L. cbn [app] in L.
      assert (R : forall l, exists r, rules w0 l = Some r). { induction l0 as [|i l0 (r & R)]; [now exists []|]. cbn [rules]. rewrite R. destruct i as [f|o v|s]; [| destruct o |]; eexists; reflexivity. }
      destruct (R l) as (r & R'). rewrite R' in L. discriminate.
    + unfold parse. destruct argv; [contradiction|]. now rewrite No.
Qed.

(** The documented --verbose is rejected. *)
Theorem C54_verbose_refuted : forall w rest, parse w (lit "--verbose" :: rest) = Rejected.
Proof.
  intros w rest. unfold parse. change (lit "--verbose") with ([45; 45] ++ lit "verbose").
  assert (N : ~ In (lit "verbose") all_names) by (unfold all_names; vm_compute; intuition discriminate).
  destruct rest as [|next rest]; [rewrite loop_last by reflexivity|rewrite loop_next by reflexivity]; rewrite (unknown _ _ _ _ _ N); reflexivity.
Qed.
(** --recursive=false turns recursion on. *)
Theorem C54_flag_value_refuted : forall w, exists p, parse w [lit "--recursive=false"; lit "src"; lit "dst"] = Accepted p /\ p_recursive p = true.
Proof.
  intros w. pose proof (C54_parse scp_to_sftp C53_scp_to_sftp true w [Flag Recursive; Arg (lit "src"); Arg (lit "dst")] [lit "--recursive=false"; lit "src"; lit "dst"]) as P.
  rewrite P; [|exact (w_long_value true Recursive (lit "false") _ _ eq_refl (w_arg true (lit "src") _ _ ltac:(discriminate) (w_arg true (lit "dst") _ _ ltac:(discriminate) (w_nil true))))|discriminate].
  eexists. split; [reflexivity|reflexivity].
Qed.

(** A non-trivial case:
    -rv --exclude=a=b src1 --include-from list src2 u@host:~/d, where the file list has
    two entries. *)
Definition ex_items : list item :=
  [Flag Recursive; Flag Verbose; Opt Exclude (lit "a=b"); Arg (lit "src1"); Opt IncludeFrom (lit "list"); Arg (lit "src2"); Arg (lit "u@host:~/d")].
Definition ex_argv : list str := [lit "-rv"; lit "--exclude=a=b"; lit "src1"; lit "--include-from"; lit "list"; lit "src2"; lit "u@host:~/d"].
Definition ex_world : world := mkworld (fun f => if list_eq_dec N.eq_dec f (lit "list") then Some ([32; 120; 13; 10; 10] ++ lit "y") else None) (fun _ => false) (fun _ => 0%Z) [] (lit "scp -P 1") [].
Example C54_example : (forall s, converts s (scp_to_sftp s)) /\ written false ex_items ex_argv /\ exists p, expected scp_to_sftp ex_world ex_items = Accepted p /\
  p_filter p = [(false, lit "a=b"); (true, lit "x"); (true, lit "y")] /\ p_sources p = [lit "src1"; lit "src2"] /\ p_user_host p = lit "u@host" /\ p_destination p = lit "~/d" /\
  p_sftp p = lit "sftp -P 1" /\ p_recursive p = true /\ p_delete p = false /\ p_verbosity p = 1%nat.
Proof.
  split; [exact C53_scp_to_sftp|]. split.
  - refine (w_short false [Recursive; Verbose] [114; 118] _ _ _ _ _); [discriminate|repeat constructor|].
    refine (w_eq false Exclude (lit "a=b") _ _ _ _); [discriminate|]. refine (w_arg false (lit "src1") _ _ _ _); [discriminate|].
    refine (w_sep false IncludeFrom (lit "list") _ _ _ _); [discriminate|]. refine (w_arg false (lit "src2") _ _ _ _); [discriminate|]. refine (w_arg false (lit "u@host:~/d") _ _ _ _); [discriminate|]. constructor.
  - eexists. split; [vm_compute; reflexivity|]. repeat split.
Qed.
