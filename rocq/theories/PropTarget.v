(** C62: cdc_stream's targets name sessions. *)
From Verif Require Import Base ParamTypes SpecPathFilter SpecSessions ModelSessions ProofSessions PropSessions SpecTarget ModelTarget.
Local Notation str := (list N).
Local Open Scope N_scope.

Lemma split_colon_spec s a b : split_colon s = Some (a, b) <-> s = a ++ 58 :: b /\ ~ In 58 a.
Proof.
  revert a b. induction s as [|c s IH]; intros a b; cbn [split_colon].
  - split; [discriminate|]. intros (H & _). destruct a; discriminate.
  - destruct (N.eqb_spec c 58) as [->|Nc].
    + split.
      * intros H. inversion H; subst. split; [reflexivity|intros []].
      * intros (H & Ni). destruct a as [|x a]; [now inversion H|]. cbn in H. inversion H; subst. exfalso. apply Ni. now left.
    + destruct (split_colon s) as [(a0 & b0)|] eqn:E.
      * split.
        -- intros H. inversion H; subst. destruct (proj1 (IH a0 b) eq_refl) as (-> & Ni). split; [reflexivity|]. intros [X|X]; auto.
        -- intros (H & Ni). destruct a as [|x a]; [cbn in H; inversion H; congruence|]. cbn in H. inversion H; subst.
           assert (Q : Some (a0, b0) = Some (a, b)) by (apply IH; split; [reflexivity|]; intros X; apply Ni; now right). now inversion Q.
      * split; [discriminate|]. intros (H & Ni). destruct a as [|x a]; [cbn in H; inversion H; congruence|]. cbn in H. inversion H; subst.
        assert (Q : None = Some (a, b)) by (apply IH; split; [reflexivity|]; intros X; apply Ni; now right). discriminate.
Qed.
Lemma upper_letter c : (65 <=? toupper c) && (toupper c <=? 90) = true <-> letter c.
Proof.
  unfold toupper, letter. destruct (N.leb_spec 97 c); destruct (N.leb_spec c 122); cbn [andb];
  rewrite andb_true_iff, !N.leb_le; lia.
Qed.

(** What is a target. *)
Theorem C62_target : forall s host dir, parse_target s = Some (host, dir) <-> is_target s host dir.
Proof.
  intros s host dir. unfold parse_target, is_target. destruct (split_colon s) as [(a & b)|] eqn:E.
  - pose proof (proj1 (split_colon_spec s a b) E) as (Hs & Ni).
    assert (U : forall h d, s = h ++ 58 :: d -> ~ In 58 h -> h = a /\ d = b).
    { intros h d A B. assert (Q : split_colon s = Some (h, d)) by (apply split_colon_spec; auto). rewrite E in Q. inversion Q; auto. }
    destruct a as [|c [|c2 a]].
    + split; [intros H; inversion H; subst; repeat split; auto; discriminate|]. intros (A & B & _). destruct (U _ _ A B) as (-> & ->). reflexivity.
    + destruct ((65 <=? toupper c) && (toupper c <=? 90)) eqn:L.
      * split; [discriminate|]. intros (A & B & C). destruct (U _ _ A B) as (-> & ->). exfalso. exact (C c eq_refl (proj1 (upper_letter c) L)).
      * split.
        -- intros H; inversion H; subst. split; [reflexivity|]. split; [exact Ni|]. intros c1 X Y. inversion X; subst. apply upper_letter in Y. congruence.
        -- intros (A & B & _). destruct (U _ _ A B) as (-> & ->). reflexivity.
    + split; [intros H; inversion H; subst; repeat split; auto; discriminate|]. intros (A & B & _). destruct (U _ _ A B) as (-> & ->). reflexivity.
  - split; [discriminate|]. intros (A & B & _). assert (Q : split_colon s = Some (host, dir)) by (apply split_colon_spec; auto). congruence.
Qed.

(** Start and stop name the session by the target itself. *)
Theorem C62_session_id : forall key ssh e dir s t,
  (forall host mount, is_target s host mount -> host <> [] -> mount <> [] -> cli_start key ssh e dir s t = perform key e (Start s dir) t) /\
  ((forall host mount, is_target s host mount -> host = [] \/ mount = []) -> cli_start key ssh e dir s t = (AError, t)) /\
  (forall host mount, is_target s host mount -> cli_stop key e s t = perform key e (Stop s) t) /\
  ((forall host mount, ~ is_target s host mount) -> s <> [42] -> cli_stop key e s t = (AError, t)) /\
  (s = [42] -> cli_stop key e s t = perform key e (Stop [42; 58; 42]) t).
Proof.
  intros key ssh e dir s t. unfold cli_start, cli_stop. split; [|split; [|split; [|split]]].
  - intros h m T Hh Hm. rewrite (proj2 (C62_target s h m) T). unfold service_start, get_target. cbn [q_gamelet q_host q_mount q_dir].
    destruct h; [congruence|]. destruct m; [congruence|]. cbn [empty Bool.eqb]. destruct T as (-> & _). reflexivity.
  - intros H. destruct (parse_target s) as [(h & m)|] eqn:E; [|reflexivity]. apply C62_target in E. destruct (H h m E) as [-> | ->].
    + reflexivity.
    + unfold service_start. cbn [q_gamelet q_host q_mount q_dir]. destruct h; reflexivity.
  - intros h m T. destruct (seqb s [42]) eqn:E.
    { apply seqb_true in E. subst. destruct T as (T & _). destruct h as [|? [|? ?]]; discriminate. }
    rewrite (proj2 (C62_target s h m) T). unfold service_stop. cbn. destruct T as (-> & _). reflexivity.
  - intros H N. destruct (seqb s [42]) eqn:E; [apply seqb_true in E; contradiction|].
    destruct (parse_target s) as [(h & m)|] eqn:E2; [|reflexivity]. apply C62_target in E2. destruct (H h m E2).
  - intros ->. reflexivity.
Qed.

Lemma glob_refl s : nul_free s -> glob s s.
Proof.
  induction s as [|c s IH]; intros N; [constructor|]. assert (N2 : nul_free s) by (intros X; apply N; now right).
  destruct (N.eq_dec c ModelPathFilter.ch_question) as [->|Q]; [constructor; auto|].
  destruct (N.eq_dec c ModelPathFilter.ch_star) as [->|Q2]; [|constructor; auto].
  exact (glob_star [ModelPathFilter.ch_star] s s (IH N2)).
Qed.
Lemma glob_plain s j : plain s -> glob s j -> j = s.
Proof.
  intros P G. induction G as [|c pat j G IH|pre pat j G IH|c pat j A B G IH]; [reflexivity| | |].
  - destruct P as (_ & P). exfalso. apply P. now left.
  - destruct P as (P & _). exfalso. apply P. now left.
  - f_equal. apply IH. destruct P as (P & Q). split; intros X; [apply P|apply Q]; now right.
Qed.
Lemma glob_all a b : glob [42; 58; 42] (a ++ 58 :: b).
Proof. apply (glob_star a [58; 42] (58 :: b)). apply glob_char; [discriminate|discriminate|]. rewrite <- (app_nil_r b). apply (glob_star b [] []). constructor. Qed.
(** What [*] matches. *)
Lemma glob_all_inv j : glob [42; 58; 42] j -> In 58 j.
Proof.
  intros G. inversion G as [| |pre pat s G2|c pat s A B]; subst; [|exfalso; apply B; reflexivity].
  apply in_or_app. right. inversion G2; subst; now left.
Qed.

(** Where sessions come from. *)
Lemma streams_started key h t j k : history key h t -> streams t j k -> exists dir, In (Start j dir) (map fst h).
Proof.
  intros H. revert j k. induction H as [|h t e o a t2 H IH P]; intros j k S.
  - destruct S as (m & G & _). discriminate.
  - assert (W := history_wf key h t H). rewrite map_app. cbn [map fst].
    assert (Old : streams t j k -> exists dir, In (Start j dir) (map fst h ++ [o])) by (intros X; destruct (IH j k X) as (d & Y); exists d; apply in_or_app; now left).
    destruct o as [i d|p| |d]; cbn [perform] in P.
    + destruct (str_dec j i) as [->|Ne].
      * exists d. apply in_or_app. right. now left.
      * destruct (start_session_spec key e i d t a t2 W P) as (_ & O & _). apply Old. apply (O j k Ne). exact S.
    + unfold stop_session in P. destruct (match_sessions p t) as [|x l] eqn:M; [inversion P; subst; auto|]. rewrite <- M in P.
      refine (Old (proj1 (proj2 (proj2 (stop_all_spec e _ t a t2 W (match_sessions_NoDup p t W) _ P))) j k S)).
      intros i HI. apply (In_match_sessions p t i W) in HI. tauto.
    + destruct (shutdown_spec e t a t2 W P) as (_ & X & _). auto.
    + inversion P; subst. apply Old. rewrite streams_runner_fails in S. exact S.
Qed.
(** All sessions were started by the start command with arguments without NUL. *)
Definition started_by_cli (h : list (op * answer)) : Prop :=
  forall j dir, In (Start j dir) (map fst h) -> (exists host mount, is_target j host mount) /\ nul_free j.
Lemma cli_streams key h t : history key h t -> started_by_cli h -> forall j k, streams t j k -> (exists a b, j = a ++ 58 :: b) /\ nul_free j /\ j <> [].
Proof.
  intros H C j k S. destruct (streams_started key h t j k H S) as (d & I1). destruct (C j d I1) as ((a & b & E & _) & N). split; [now exists a, b|]. split; [exact N|]. subst. destruct a; discriminate.
Qed.

(** Stopping the target of a session ends it; no other session ends if the target has no
    wildcards. *)
Theorem C62_stop : forall key h t e s k a t2, history key h t -> started_by_cli h -> streams t s k ->
  cli_stop key e s t = (a, t2) ->
  a <> ANotFound /\ a <> ACrash /\ (a = AOk -> forall k2, ~ streams t2 s k2) /\
  (plain s -> forall j k2, j <> s -> (streams t2 j k2 <-> streams t j k2)) /\
  (plain s -> stop_ok e s = true -> forall k2, ~ streams t2 s k2).
Proof.
  intros key h t e s k a t2 H C S P. assert (W := history_wf key h t H). pose proof (cli_streams key h t H C) as Q.
  destruct (streams_started key h t s k H S) as (d & I1). destruct (C s d I1) as ((ho & mo & T) & Ns).
  rewrite (proj1 (proj2 (proj2 (C62_session_id key (fun _ => None) e d s t))) ho mo T) in P.
  destruct (C56_stop key h t e s a t2 H Ns (fun j k2 X => proj2 (Q j k2 X)) P) as (A & B & _ & D & E & F).
  split; [|split; [exact F|split; [|split]]].
  - intros X. apply B with (j := s) (k := k) in X; [|exact S]. apply X. exact (glob_refl s Ns).
  - intros -> k2 X. apply (A eq_refl) in X. destruct X as (_ & X). apply X. exact (glob_refl s Ns).
  - intros Pl j k2 N. apply D. intros G. apply N. exact (glob_plain s j Pl G).
  - intros Pl So k2 X. cbn [perform] in P. unfold stop_session in P.
    assert (M : match_sessions s t = [s]).
    { assert (Nd := match_sessions_NoDup s t W). assert (HIn : forall j, In j (match_sessions s t) <-> j = s).
      { intros j. rewrite (In_match_sessions s t j W). split.
        - intros (Mt & k3 & S3). destruct (Q j k3 S3) as (_ & Nj & Nej). apply (matches_glob s j Nj Ns Nej) in Mt. exact (glob_plain s j Pl Mt).
        - intros ->. split; [|now exists k]. apply (matches_glob s s Ns Ns); [|exact (glob_refl s Ns)]. destruct T as (-> & _). destruct ho; discriminate. }
      destruct (match_sessions s t) as [|x [|y l]].
      - destruct (proj2 (HIn s) eq_refl).
      - f_equal. apply HIn. now left.
      - exfalso. assert (x = s) by (apply HIn; now left). assert (y = s) by (apply HIn; right; now left). subst. inversion Nd as [|? ? Z _]; subst. apply Z. now left. }
    rewrite M in P. cbn [stop_all] in P. destruct (stop_internal e s t) as (a0 & t0) eqn:SI. pose proof (stop_internal_spec e s t a0 t0 W SI) as (_ & _ & Z).
    destruct a0; inversion P; subst; [destruct Z as (G & _); apply G in X; tauto|destruct Z as (_ & Z); exact (Z k S)|destruct Z as [(_ & Z)|(G & _)]; [congruence|apply G in X; tauto]|exact Z].
Qed.
(** The argument given to start can be given to stop. *)
Theorem C62_start_then_stop : forall key ssh h t e dir s t2 e2 a t3, history key h t -> started_by_cli h -> nul_free s ->
  cli_start key ssh e dir s t = (AOk, t2) -> cli_stop key e2 s t2 = (a, t3) ->
  streams t2 s (key dir) /\ a <> ANotFound /\ (a = AOk -> forall k, ~ streams t3 s k).
Proof.
  intros key ssh h t e dir s t2 e2 a t3 H C Ns P P2. assert (W := history_wf key h t H).
  destruct (parse_target s) as [(ho & mo)|] eqn:E; [|unfold cli_start in P; rewrite E in P; discriminate].
  assert (Q : perform key e (Start s dir) t = (AOk, t2)).
  { assert (ho <> [] /\ mo <> []) as (A & B).
    { split; intros ->; unfold cli_start, service_start in P; rewrite E in P; cbn in P; [discriminate|]. destruct ho; discriminate. }
    rewrite <- P. symmetry. apply (proj1 (C62_session_id key ssh e dir s t) ho mo); auto. now apply C62_target. }
  assert (S : streams t2 s (key dir)) by (destruct (start_session_spec key e s dir t AOk t2 W Q) as (_ & _ & X); now apply X).
  assert (H2 : history key (h ++ [(Start s dir, AOk)]) t2) by (exact (h_op key [] h t e _ _ _ H Q)).
  assert (C2 : started_by_cli (h ++ [(Start s dir, AOk)])).
  { intros j d I1. rewrite map_app in I1. apply in_app_or in I1. destruct I1 as [I1|[I1|[]]]; [exact (C j d I1)|]. cbn in I1. inversion I1; subst. split; [|exact Ns]. exists ho, mo. now apply C62_target. }
  destruct (C62_stop key _ t2 e2 s (key dir) a t3 H2 C2 S P2) as (A & _ & B & _). auto.
Qed.
(** "stop *" ends all sessions. *)
Theorem C62_stop_all : forall key h t e a t2, history key h t -> started_by_cli h -> cli_stop key e [42] t = (a, t2) ->
  (a = AOk -> forall j k, ~ streams t2 j k) /\ (a = ANotFound <-> forall j k, ~ streams t j k).
Proof.
  intros key h t e a t2 H C P. pose proof (cli_streams key h t H C) as Q.
  rewrite (proj2 (proj2 (proj2 (proj2 (C62_session_id key (fun _ => None) e [] [42] t)))) eq_refl) in P.
  assert (Np : nul_free [42; 58; 42]) by (intros [X|[X|[X|[]]]]; discriminate).
  destruct (C56_stop key h t e _ a t2 H Np (fun j k2 X => proj2 (Q j k2 X)) P) as (A & B & _).
  assert (G : forall j k, streams t j k -> glob [42; 58; 42] j) by (intros j k S; destruct (Q j k S) as ((x & y & ->) & _); apply glob_all).
  split.
  - intros -> j k S. apply (A eq_refl) in S. destruct S as (S & N). exact (N (G j k S)).
  - rewrite B. split; intros X j k S; [exact (X j k S (G j k S))|destruct (X j k S)].
Qed.

(** Instance names. *)
Lemma split_slash_spec s : forall cur, exists ps, split_slash cur s = ps /\ ps <> [] /\ cur ++ s = match ps with p :: r => p ++ flat_map (fun q => 47 :: q) r | [] => [] end /\ (~ In 47 cur -> Forall (fun p => ~ In 47 p) ps).
Proof.
  induction s as [|c s IH]; intros cur; cbn [split_slash].
  - exists [cur]. split; [reflexivity|]. split; [discriminate|]. split; [reflexivity|]. intros N. constructor; [exact N|constructor].
  - destruct (N.eqb_spec c 47) as [->|Nc].
    + destruct (IH []) as (ps & E & Ne & J & F). exists (cur :: ps). rewrite E. split; [reflexivity|]. split; [discriminate|]. split.
      * f_equal. destruct ps as [|p r]; [congruence|]. cbn [flat_map]. cbn [app] in *. f_equal. exact J.
      * intros N. constructor; [exact N|]. apply F. intros [].
    + destruct (IH (cur ++ [c])) as (ps & E & Ne & J & F). exists ps. split; [exact E|]. split; [exact Ne|]. split.
      * rewrite <- J, <- app_assoc. reflexivity.
      * intros N. apply F. intros X. apply in_app_or in X. destruct X as [X|[X|[]]]; auto.
Qed.
Lemma split_slash_app : forall p s cur, ~ In 47 p -> split_slash cur (p ++ 47 :: s) = (cur ++ p) :: split_slash [] s.
Proof.
  induction p as [|c p IH]; intros s cur N; cbn [app split_slash].
  - now rewrite app_nil_r.
  - destruct (N.eqb_spec c 47) as [->|Nc]; [exfalso; apply N; now left|]. rewrite IH; [now rewrite <- app_assoc|]. intros X; apply N; now right.
Qed.
Lemma split_slash_last : forall p cur, ~ In 47 p -> split_slash cur p = [cur ++ p].
Proof.
  induction p as [|c p IH]; intros cur N; cbn [split_slash]; [now rewrite app_nil_r|].
  destruct (N.eqb_spec c 47) as [->|Nc]; [exfalso; apply N; now left|]. rewrite IH; [now rewrite <- app_assoc|]. intros X; apply N; now right.
Qed.
Lemma empty_true s : empty s = true <-> s = [].
Proof. destruct s; cbn; split; congruence. Qed.
Theorem C62_instance_name : forall name org project instance,
  parse_instance_name name = Some (org, project, instance) <-> is_instance_name name org project instance.
Proof.
  intros name org project instance. unfold parse_instance_name, is_instance_name. split.
  - destruct (split_slash_spec name []) as (ps & E & _ & J & F). specialize (F (fun X => X)). rewrite E.
    destruct ps as [|p0 [|p1 [|p2 [|p3 [|p4 [|p5 [|p6 [|p7 [|p8 [|p9 [|]]]]]]]]]]]; try discriminate.
    repeat match goal with
    | |- (if negb (seqb ?a ?b) || _ then _ else _) = _ -> _ => let Q := fresh "Q" in destruct (seqb a b) eqn:Q; cbn [negb orb]; [apply seqb_true in Q|discriminate]
    | |- (if negb (seqb ?a ?b) || _ || _ || _ then _ else _) = _ -> _ => let Q := fresh "Q" in destruct (seqb a b) eqn:Q; cbn [negb orb]; [apply seqb_true in Q|discriminate]
    | |- (if empty ?a then _ else _) = _ -> _ => let Q := fresh "Q" in destruct (empty a) eqn:Q; cbn [negb orb]; [discriminate|]
    | |- (if empty ?a || empty ?b || empty ?c then _ else _) = _ -> _ => let Q := fresh "Q" in destruct (empty a) eqn:Q; cbn [negb orb]; [discriminate|]
    | |- (if empty ?b || empty ?c then _ else _) = _ -> _ => let Q := fresh "Q" in destruct (empty b) eqn:Q; cbn [negb orb]; [discriminate|]
    end.
    assert (Pt : forall p, ~ In 47 p -> empty p = false -> part p) by (intros p A B; split; [destruct p; [discriminate|discriminate]|exact A]).
    intros H. inversion H; subst. exists p5, p7, p8, p9.
    repeat match goal with F : Forall _ (_ :: _) |- _ => apply Forall_cons_iff in F; destruct F as (? & F) end.
    split; [repeat (constructor; [apply Pt; assumption|]); constructor|]. split; [reflexivity|].
    cbn [app] in J. rewrite J. cbn [flat_map]. rewrite app_nil_r. cbn. repeat (rewrite <- ?app_assoc; cbn [app]). reflexivity.
  - intros (pool & a & b & c & F & -> & ->).
    repeat match goal with F : Forall _ (_ :: _) |- _ => apply Forall_cons_iff in F; destruct F as ((? & ?) & F) end.
    assert (L : lit "organizations/" ++ org ++ lit "/projects/" ++ project ++ lit "/pools/" ++ pool ++ lit "/gamelets/" ++ a ++ 47 :: b ++ 47 :: c =
                lit "organizations" ++ 47 :: org ++ 47 :: lit "projects" ++ 47 :: project ++ 47 :: lit "pools" ++ 47 :: pool ++ 47 :: lit "gamelets" ++ 47 :: a ++ 47 :: b ++ 47 :: c) by reflexivity.
    rewrite L. clear L.
    assert (NL : forall w, existsb (N.eqb 47) w = false -> ~ In 47 w).
    { intros w X Y. assert (existsb (N.eqb 47) w = true) by (apply existsb_exists; exists 47; split; [exact Y|reflexivity]). congruence. }
    repeat (rewrite split_slash_app; [|first [assumption|apply NL; reflexivity]]). rewrite split_slash_last by assumption. cbn [app].
    rewrite !seqb_same. cbn [negb orb].
    repeat match goal with N : ?p <> [] |- _ => rewrite (proj1 (not_true_iff_false (empty p)) (fun X => N (proj1 (empty_true p) X))); clear N end. cbn [orb]. reflexivity.
Qed.

(** Values in the output of "ggp ssh init". *)
Lemma getlines_spec s : forall cur, ~ In 10 cur -> lines_of (cur ++ s) (getlines cur s).
Proof.
  induction s as [|c s IH]; intros cur N; cbn [getlines].
  - rewrite app_nil_r. destruct cur as [|x cur]; [split; [constructor|now left]|]. split; [constructor; [exact N|constructor]|]. right. exists (x :: cur). split; [discriminate|]. split; [exact N|]. exists []. split; reflexivity.
  - destruct (N.eqb_spec c 10) as [->|Nc].
    + destruct (IH [] (fun X => X)) as (F & D). cbn [app] in D. split; [constructor; assumption|]. destruct D as [D|(l & A & B & ls0 & E1 & E2)].
      * left. cbn [unlines]. rewrite <- D. reflexivity.
      * right. exists l. split; [exact A|]. split; [exact B|]. exists (cur :: ls0). rewrite E1. split; [reflexivity|]. cbn. rewrite E2, <- app_assoc. reflexivity.
    + replace (cur ++ c :: s) with ((cur ++ [c]) ++ s) by (rewrite <- app_assoc; reflexivity). apply IH. intros X. apply in_app_or in X. destruct X as [X|[X|[]]]; auto.
Qed.
(** The lines of a text are determined by it. *)
Lemma getlines_app l : forall s cur, ~ In 10 l -> getlines cur (l ++ 10 :: s) = (cur ++ l) :: getlines [] s.
Proof.
  induction l as [|c l IH]; intros s cur N; cbn [app getlines]; [now rewrite app_nil_r|].
  destruct (N.eqb_spec c 10) as [->|Nc]; [exfalso; apply N; now left|]. rewrite IH; [now rewrite <- app_assoc|]. intros X; apply N; now right.
Qed.
Lemma getlines_last l : forall cur, ~ In 10 l -> cur ++ l <> [] -> getlines cur l = [cur ++ l].
Proof.
  induction l as [|c l IH]; intros cur N Ne; cbn [getlines].
  - rewrite app_nil_r in *. destruct cur; [congruence|reflexivity].
  - destruct (N.eqb_spec c 10) as [->|Nc]; [exfalso; apply N; now left|]. rewrite IH; [now rewrite <- app_assoc|intros X; apply N; now right|]. intros X. apply app_eq_nil in X. destruct X as (X & _). apply app_eq_nil in X. destruct X; discriminate.
Qed.
Lemma lines_of_getlines data ls : lines_of data ls -> getlines [] data = ls.
Proof.
  intros (F & D). assert (U : forall ls0 tl, Forall (fun l => ~ In 10 l) ls0 -> getlines [] (unlines ls0 ++ tl) = ls0 ++ getlines [] tl).
  { induction ls0 as [|l ls0 IH]; intros tl F0; [reflexivity|]. apply Forall_cons_iff in F0. destruct F0 as (N & F0). cbn [unlines]. rewrite <- app_assoc. cbn [app]. rewrite getlines_app by exact N. cbn [app]. now rewrite IH. }
  destruct D as [->|(l & A & B & ls0 & -> & ->)].
  - rewrite <- (app_nil_r (unlines ls)), U by exact F. cbn. now rewrite app_nil_r.
  - apply Forall_app in F. rewrite U by tauto. now rewrite getlines_last.
Qed.
Lemma starts_spec p s r : starts p s = Some r <-> s = p ++ r.
Proof.
  revert s. induction p as [|a p IH]; intros s; cbn [starts app]; [split; [intros H; now inversion H|intros ->; reflexivity]|].
  destruct s as [|b s]; [split; discriminate|]. destruct (N.eqb_spec a b) as [->|Ne].
  - rewrite IH. split; [intros ->; reflexivity|intros H; now inversion H].
  - split; [discriminate|]. intros H. inversion H. congruence.
Qed.
Lemma isspace_spec c : isspace c = true <-> space c.
Proof. unfold isspace, space. rewrite orb_true_iff, andb_true_iff, N.eqb_eq, !N.leb_le. tauto. Qed.
Lemma skip_space_spec s : exists a, s = a ++ skip_space s /\ Forall space a /\ forall c r, skip_space s = c :: r -> ~ space c.
Proof.
  induction s as [|c s (a & E & F & L)]; [exists []; repeat split; [constructor|discriminate]|]. cbn [skip_space]. destruct (isspace c) eqn:Q.
  - exists (c :: a). split; [cbn; now rewrite <- E|]. split; [constructor; [now apply isspace_spec|exact F]|exact L].
  - exists []. split; [reflexivity|]. split; [constructor|]. intros c1 r X Y. inversion X; subst. apply isspace_spec in Y. congruence.
Qed.
Lemma trim_spec s : trimmed s (rev (skip_space (rev (skip_space s)))).
Proof.
  destruct (skip_space_spec s) as (a & E & F & L). set (m := skip_space s) in *. destruct (skip_space_spec (rev m)) as (b & E2 & F2 & L2). set (w := skip_space (rev m)) in *.
  assert (Em : m = rev w ++ rev b) by (rewrite <- rev_app_distr, <- E2, rev_involutive; reflexivity).
  exists a, (rev b). split; [rewrite <- Em; exact E|]. split; [exact F|]. split; [apply Forall_rev; exact F2|]. split; [|split].
  - intros c r X. apply (L c (r ++ rev b)). rewrite Em, X. reflexivity.
  - intros c r X. apply (L2 c (rev r)). assert (Y : rev (rev w) = rev (r ++ [c])) by (now rewrite X). rewrite rev_involutive, rev_app_distr in Y. exact Y.
  - intros X. destruct w as [|y w]; [|cbn in X; apply app_eq_nil in X; destruct X; discriminate]. cbn [rev app] in Em.
    destruct (rev b) as [|z b2] eqn:Eb; [reflexivity|]. exfalso. apply (L z b2 Em). assert (F3 : Forall space (rev b)) by (apply Forall_rev; exact F2). rewrite Eb in F3. now inversion F3.
Qed.
Lemma rev_cases (l : str) : l = [] \/ exists l2 y, l = l2 ++ [y].
Proof. destruct l as [|x l]; [now left|]. right. destruct (exists_last (l := x :: l)) as (l2 & y & E); [discriminate|]. now exists l2, y. Qed.
Lemma trimmed_unique s v w : trimmed s v -> trimmed s w -> v = w.
Proof.
  intros (a & b & E & Fa & Fb & L1 & R1 & Z1) (a2 & b2 & E2 & Fa2 & Fb2 & L2 & R2 & Z2).
  assert (NS : forall (x : str) y z, x ++ y = z -> Forall space z -> Forall space x /\ Forall space y) by (intros x y z <-; apply Forall_app).
  assert (Key : forall a v b a2 w b2, a ++ v ++ b = a2 ++ w ++ b2 -> Forall space a -> Forall space a2 -> (v = [] -> b = []) -> (w = [] -> b2 = []) ->
     (forall c r, v = c :: r -> ~ space c) -> (forall c r, w = c :: r -> ~ space c) -> a = a2).
  { clear. induction a as [|x a IH]; intros v b a2 w b2 E F F2 Zv Zw Lv Lw.
    - destruct a2 as [|y a2]; [reflexivity|]. exfalso. cbn in E. inversion F2; subst. destruct v as [|z v]; [rewrite (Zv eq_refl) in E; discriminate|]. cbn in E. inversion E; subst. exact (Lv y v eq_refl H1).
    - destruct a2 as [|y a2].
      + exfalso. cbn in E. inversion F; subst. destruct w as [|z w]; [rewrite (Zw eq_refl) in E; discriminate|]. cbn in E. inversion E; subst. exact (Lw z w eq_refl H1).
      + cbn in E. inversion E; subst. inversion F; inversion F2; subst. f_equal. eapply IH; eauto. }
  assert (a = a2) as <- by (eapply Key; [rewrite <- E; exact E2|..]; auto).
  rewrite E in E2. apply app_inv_head in E2.
  assert (Key2 : forall b v w b2, v ++ b = w ++ b2 -> Forall space b -> Forall space b2 -> (v = [] -> b = []) -> (w = [] -> b2 = []) ->
     (forall c r, v = r ++ [c] -> ~ space c) -> (forall c r, w = r ++ [c] -> ~ space c) -> v = w).
  { clear. intros b. induction b as [|x b IH] using rev_ind; intros v w b2 E F F2 Zv Zw Lv Lw.
    - rewrite app_nil_r in E. destruct (rev_cases b2) as [->|(b3 & y & ->)]; [now rewrite app_nil_r in E|]. exfalso. apply Forall_app in F2. destruct F2 as (_ & F2). apply Forall_inv in F2. rewrite app_assoc in E. exact (Lv y _ E F2).
    - destruct (rev_cases b2) as [->|(b3 & y & ->)].
      + exfalso. rewrite app_nil_r in E. apply Forall_app in F. destruct F as (_ & F). apply Forall_inv in F. rewrite app_assoc in E. exact (Lw x _ (eq_sym E) F).
      + rewrite !app_assoc in E. apply app_inj_tail in E. destruct E as (E & _). apply Forall_app in F, F2.
        apply (IH v w b3 E); try tauto; intros X; exfalso; [specialize (Zv X); destruct b; discriminate|specialize (Zw X); destruct b3; discriminate]. }
  eapply Key2; eauto.
Qed.
Theorem C62_value : forall data key v, parse_value data key = Some v <-> exists ls, lines_of data ls /\ value_of ls key v.
Proof.
  intros data key v. unfold parse_value. assert (Core : forall ls, parse_lines ls key = Some v <-> value_of ls key v).
  { assert (HK : forall l, has_key key l <-> exists r, starts (key ++ [58]) l = Some r).
    { intros l. unfold has_key. split; intros (r & X); exists r; [apply starts_spec|apply starts_spec in X]; rewrite X, <- app_assoc in *; reflexivity. }
    induction ls as [|l ls IH]; cbn [parse_lines].
    - split; [discriminate|]. intros (l1 & r & l2 & X & _). destruct l1; discriminate.
    - destruct (starts (key ++ [58]) l) as [r|] eqn:Q.
      + pose proof (proj1 (starts_spec _ _ _) Q) as El. rewrite <- app_assoc in El. cbn [app] in El. split.
        * intros H. inversion H; subst. exists [], r, ls. split; [reflexivity|]. split; [constructor|apply trim_spec].
        * intros (l1 & r2 & l2 & X & F & T). destruct l1 as [|y l1].
          -- cbn in X. inversion X as [[Y Z]]. rewrite El in Y. apply app_inv_head in Y. inversion Y; subst. f_equal. exact (trimmed_unique r2 _ _ (trim_spec r2) T).
          -- exfalso. cbn in X. inversion X; subst. inversion F; subst. apply H1. apply HK. now exists r.
      + rewrite IH. split.
        * intros (l1 & r2 & l2 & -> & F & T). exists (l :: l1), r2, l2. split; [reflexivity|]. split; [constructor; [|exact F]|exact T]. intros X. apply HK in X. destruct X. congruence.
        * intros (l1 & r2 & l2 & X & F & T). destruct l1 as [|y l1].
          -- exfalso. cbn in X. inversion X; subst. assert (exists r0, starts (key ++ [58]) (key ++ 58 :: r2) = Some r0) as (r0 & Y) by (apply HK; now exists r2). congruence.
          -- cbn in X. inversion X; subst. inversion F; subst. exists l1, r2, l2. auto. }
  rewrite Core. split.
  - intros H. exists (getlines [] data). split; [exact (getlines_spec data [] (fun X => X))|exact H].
  - intros (ls & L & V). now rewrite (lines_of_getlines data ls L).
Qed.
(** Every text has exactly one decomposition into lines. *)
Theorem C62_lines_unique : forall data, exists! ls, lines_of data ls.
Proof. intros data. exists (getlines [] data). split; [exact (getlines_spec data [] (fun X => X))|]. intros ls L. exact (lines_of_getlines data ls L). Qed.

Lemma two_ops key e1 o1 a1 t1 e2 o2 a2 t2 : perform key e1 o1 [] = (a1, t1) -> perform key e2 o2 t1 = (a2, t2) -> history key [(o1, a1); (o2, a2)] t2.
Proof. intros A B. exact (h_op key [] [(o1, a1)] t1 e2 o2 a2 t2 (h_op key [] [] [] e1 o1 a1 t1 (h_nil key []) A) B). Qed.
(** Refuted: "stop *" ends every session. Sessions that were started with an instance name
    (the Stadia SDK) have ids without a colon. *)
Definition a_name : str := lit "organizations/o/projects/p/pools/q/gamelets/edge/e/x1".
Theorem C62_stop_all_refuted : exists key ssh h t t2, history key h t /\ h = [(Start (lit "u@h:/mnt") (lit "/d"), AOk); (Start (lit "edge/e/x1") (lit "/d"), AOk)] /\
  (forall t0, service_start key ssh all_good (mkstart (lit "/d") a_name [] (lit "/mnt")) t0 = perform key all_good (Start (lit "edge/e/x1") (lit "/d")) t0) /\
  cli_stop key all_good [42] t = (AOk, t2) /\ (forall k, ~ streams t2 (lit "u@h:/mnt") k) /\ streams t2 (lit "edge/e/x1") (lit "/d").
Proof.
  exists (fun d => d), (fun _ => Some (lit "1.2.3.4")). exists [(Start (lit "u@h:/mnt") (lit "/d"), AOk); (Start (lit "edge/e/x1") (lit "/d"), AOk)], [(lit "/d", mkms [lit "u@h:/mnt"; lit "edge/e/x1"] false false)], [(lit "/d", mkms [lit "edge/e/x1"] false false)].
  split; [|split; [reflexivity|split; [reflexivity|split; [vm_compute; reflexivity|]]]].
  - eapply (two_ops _ all_good _ _ _ all_good); vm_compute; reflexivity.
  - split.
    + intros k (m & G & X). cbn [get] in G. destruct (seqb k (lit "/d")); [|discriminate G]. inversion G; subst. destruct X as [X|[]]. discriminate.
    + eexists. split; [vm_compute; reflexivity|]. now left.
Qed.

(** Examples. *)
Definition key0 (d : str) : str := d.
Example target_ex : is_target (lit "user@host:/a:b") (lit "user@host") (lit "/a:b") /\ parse_target (lit "C:\dir") = None /\ parse_target (lit "1:x") = Some (lit "1", lit "x") /\ parse_target (lit "host") = None.
Proof. split; [apply C62_target; vm_compute; reflexivity|]. vm_compute. auto. Qed.
Example stop_ex : exists h t t2, history key0 h t /\ started_by_cli h /\ plain (lit "h1:/m") /\ streams t (lit "h1:/m") (lit "/d") /\ streams t (lit "h2:/m") (lit "/d") /\
  cli_stop key0 all_good (lit "h1:/m") t = (AOk, t2) /\ streams t2 (lit "h2:/m") (lit "/d").
Proof.
  exists [(Start (lit "h1:/m") (lit "/d"), AOk); (Start (lit "h2:/m") (lit "/d"), AOk)], [(lit "/d", mkms [lit "h1:/m"; lit "h2:/m"] false false)], [(lit "/d", mkms [lit "h2:/m"] false false)]. split.
  - eapply (two_ops _ all_good _ _ _ all_good); vm_compute; reflexivity.
  - split.
    { intros j d [X|[X|[]]]; inversion X; subst; (split; [eexists; eexists; apply C62_target; vm_compute; reflexivity|]); intros Y; vm_compute in Y; intuition discriminate. }
    split; [split; intros Y; vm_compute in Y; intuition discriminate|]. split; [eexists; split; [vm_compute; reflexivity|now left]|]. split; [eexists; split; [vm_compute; reflexivity|right; now left]|].
    split; [vm_compute; reflexivity|]. eexists. split; [vm_compute; reflexivity|now left].
Qed.
Example instance_ex : is_instance_name a_name (lit "o") (lit "p") (lit "edge/e/x1").
Proof. apply C62_instance_name. vm_compute. reflexivity. Qed.
Example value_ex : exists ls, lines_of (lit "Region: x" ++ 10 :: lit "Host:  1.2.3.4 " ++ 13 :: 10 :: lit "Port: 44722") ls /\ value_of ls (lit "Host") (lit "1.2.3.4").
Proof. apply C62_value. vm_compute. reflexivity. Qed.
