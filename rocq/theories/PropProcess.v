(** C69: hearing a child process out. *)
From Verif Require Import Base SpecProcess ModelProcess.
From Coq Require Import Lia.
Local Notation str := (list N).

Lemma stream_eqb_refl s : stream_eqb s s = true. Proof. destruct s; reflexivity. Qed.
Lemma stream_eqb_spec s t : stream_eqb s t = true <-> s = t.
Proof. destruct s, t; cbn; split; congruence. Qed.
Lemma run_app x h y : run x h y -> forall k z, run y k z -> run x (h ++ k) z.
Proof. induction 1 as [|x e y h z' Hs Hr IH]; intros k z Hk; [exact Hk|]. cbn. econstructor; [exact Hs|apply IH; exact Hk]. Qed.
Lemma run_split h : forall k x z, run x (h ++ k) z -> exists y, run x h y /\ run y k z.
Proof.
  induction h as [|e h IH]; intros k x z H; cbn in H.
  - exists x. split; [constructor|exact H].
  - inversion H; subst. destruct (IH _ _ _ H5) as (m & A & B). exists m. split; [econstructor; eauto|exact B].
Qed.
Lemma set_pipe_get f s x t : set_pipe f s x t = if stream_eqb t s then x else f t. Proof. reflexivity. Qed.

(** One step, one stream. *)
Lemma step_text x e y s : step x e y ->
  heard s [e] ++ p_pipe y s = p_pipe x s ++ written s [e].
Proof.
  intros H. destruct H; cbn [heard written p_pipe]; rewrite ?set_pipe_get;
    try (destruct (stream_eqb s _) eqn:E; [apply stream_eqb_spec in E; subst|]); rewrite ?app_nil_r; cbn [app]; auto.
Qed.
Lemma heard_app s h k : heard s (h ++ k) = heard s h ++ heard s k.
Proof. induction h as [|e h IH]; [reflexivity|]. destruct e; cbn; rewrite ?IH; auto. destruct (stream_eqb s s0); [rewrite <- app_assoc|]; reflexivity. Qed.
Lemma written_app s h k : written s (h ++ k) = written s h ++ written s k.
Proof. induction h as [|e h IH]; [reflexivity|]. destruct e; cbn; rewrite ?IH; auto. destruct (stream_eqb s s0); [rewrite <- app_assoc|]; reflexivity. Qed.
Lemma run_text x h y s : run x h y -> heard s h ++ p_pipe y s = p_pipe x s ++ written s h.
Proof.
  induction 1 as [x|x e y h z Hs Hr IH]; [cbn; rewrite app_nil_r; reflexivity|].
  change (e :: h) with ([e] ++ h). rewrite heard_app, written_app, <- app_assoc, IH, !app_assoc.
  rewrite (step_text _ _ _ s Hs). reflexivity.
Qed.
(** What is heard is the beginning of what was written, in order, nothing twice, in pieces that fit the buffer. *)
Theorem C69_prefix : forall h x s, run proc_init h x ->
  (exists lost, written s h = heard s h ++ lost) /\
  (forall t piece, In (Heard t piece) h -> 1 <= length piece <= 4095).
Proof.
  intros h x s H. split.
  - exists (p_pipe x s). pose proof (run_text _ _ _ s H) as E. cbn in E. symmetry. exact E.
  - clear s. assert (G : forall p h x, run p h x -> forall t piece, In (Heard t piece) h -> 1 <= length piece <= 4095).
    { clear. induction 1 as [x|x e y h z Hs Hr IH]; intros t piece Hin; [contradiction|]. destruct Hin as [->|Hin]; [|eauto].
      assert (Q : piece <> [] /\ length piece <= max_piece) by (inversion Hs; subst; auto).
      destruct Q as (Q1 & Q2). destruct piece; [congruence|]. cbn [length] in *. unfold max_piece in Q2. lia. }
    exact (G _ _ _ H).
Qed.
(** Claimed: when the exit is noticed, everything the child wrote was heard. The thread looks at the exit first and
    drops what is in the pipe. *)
Theorem C69_all_heard_refuted :
  ~ (forall h x c s, run proc_init h x -> In (Noticed c) h -> heard s h = written s h).
Proof.
  intros H. specialize (H [Silent; Silent; Writes StdOut [69%N]; Exits 1; Noticed 1]).
  assert (R : exists x, run proc_init [Silent; Silent; Writes StdOut [69%N]; Exits 1; Noticed 1] x).
  { eexists. unfold proc_init. econstructor; [apply SDrainNext; reflexivity|]. econstructor; [apply SDrained; reflexivity|].
    econstructor; [apply SWrite|]. econstructor; [apply SExit|]. econstructor; [apply SNoticed|]. constructor. }
  destruct R as (x & R). specialize (H x 1%N StdOut R). cbn in H. discriminate H. auto 10.
Qed.
(** It was, if the pipes were empty when the child exited: the thread had kept up. *)
Lemma dead_quiet x h y : run x h y -> p_child x <> None -> forall s, written s h = [].
Proof.
  induction 1 as [x|x e y h z Hs Hr IH]; intros Hc s; [reflexivity|].
  change (e :: h) with ([e] ++ h). rewrite written_app, IH; [|inversion Hs; subst; cbn in *; congruence].
  rewrite app_nil_r. inversion Hs; subst; cbn in *; congruence.
Qed.
Theorem C69_all_heard_partial : forall h k x y c,
  run proc_init h x -> (forall s, heard s h = written s h) -> run x (Exits c :: k) y ->
  forall s, heard s (h ++ Exits c :: k) = written s (h ++ Exits c :: k).
Proof.
  intros h k x y c H Hh Hk s. rewrite heard_app, written_app, Hh. f_equal.
  pose proof (run_text _ _ _ s H) as E1. rewrite Hh in E1. cbn in E1.
  assert (Ep : p_pipe x s = []).
  { rewrite <- (app_nil_r (written s h)) in E1 at 2. apply app_inv_head in E1. exact E1. }
  inversion Hk as [|a b m d e Hs Hr]; subst. inversion Hs; subst. cbn [heard written].
  pose proof (run_text _ _ _ s Hr) as E2. rewrite (dead_quiet _ _ _ Hr) in E2 by discriminate. cbn [p_pipe] in *. rewrite Ep in E2. cbn in E2.
  rewrite (dead_quiet _ _ _ Hr) by discriminate. apply app_eq_nil in E2. exact (proj1 E2).
Qed.
(** The exit is noticed only after it happened, with the right code, and once. *)
Definition exits (h : list event) : list N := flat_map (fun e => match e with Exits c => [c] | _ => [] end) h.
Definition notices (h : list event) : list N := flat_map (fun e => match e with Noticed c => [c] | _ => [] end) h.
Definition opt (c : option N) : list N := match c with Some c => [c] | None => [] end.
Theorem C69_exit : forall h x, run proc_init h x ->
  exits h = opt (p_child x) /\ notices h = opt (p_noticed x) /\ (forall c, In c (notices h) -> In c (exits h)).
Proof.
  intros h x H.
  assert (G : forall p h x, run p h x -> (p_pump p <> Stopped -> p_noticed p = None) -> (forall c, p_noticed p = Some c -> p_child p = Some c) ->
     opt (p_child p) ++ exits h = opt (p_child x) /\ opt (p_noticed p) ++ notices h = opt (p_noticed x) /\ (forall c, p_noticed x = Some c -> p_child x = Some c)).
  { clear. induction 1 as [x|x e y h z Hs Hr IH]; intros H1 H2; [cbn; rewrite !app_nil_r; auto|].
    assert (Q : (p_pump y <> Stopped -> p_noticed y = None) /\ (forall c, p_noticed y = Some c -> p_child y = Some c) /\
                opt (p_child x) ++ exits [e] = opt (p_child y) /\ opt (p_noticed x) ++ notices [e] = opt (p_noticed y)).
    { destruct Hs; cbn [p_pump p_noticed p_child exits notices flat_map app opt] in *; rewrite ?app_nil_r;
        (split; [intros X; first [congruence | apply H1; discriminate | apply H1; exact X]|]);
        (split; [intros c0 X; try (specialize (H2 _ X)); first [exact X | exact H2 | discriminate H2 | congruence]|]); split; try reflexivity.
      rewrite H1 by discriminate. reflexivity. }
    destruct Q as (Q1 & Q2 & Q3 & Q4). destruct (IH Q1 Q2) as (A & B & C).
    change (e :: h) with ([e] ++ h). unfold exits, notices in *. rewrite !flat_map_app, !app_assoc. rewrite Q3, Q4. auto. }
  destruct (G _ _ _ H) as (A & B & C); [reflexivity|discriminate|]. cbn in A, B. split; [exact A|]. split; [exact B|].
  intros c Hc. rewrite B in Hc. rewrite A. destruct (p_noticed x) as [d|]; cbn in Hc; [|contradiction]. destruct Hc as [->|[]].
  rewrite (C c eq_refl). left. reflexivity.
Qed.
(** When the thread has ended (Terminate waits for it), no handler is called any more. *)
Theorem C69_quiet_after_end : forall h k e x, run proc_init (h ++ e :: k) x -> (e = Ends \/ exists c, e = Noticed c) ->
  forall s piece, ~ In (Heard s piece) k.
Proof.
  intros h k e x H He s piece Hin. destruct (run_split _ _ _ _ H) as (y & _ & H2). inversion H2 as [|a b m d f Hs Hr]; subst.
  assert (Hp : p_pump m = Stopped) by (destruct He as [->|(c & ->)]; inversion Hs; subst; reflexivity).
  clear - Hr Hp Hin. induction Hr as [x|x e y h z Hs Hr IH]; [contradiction|].
  destruct Hin as [->|Hin]; [inversion Hs; subst; cbn in Hp; discriminate|]. apply IH; [exact Hin|].
  inversion Hs; subst; cbn in *; congruence.
Qed.
(** Terminate: the thread ends by itself after at most as many steps as there is data left to hear, and a few more. *)
Definition measure (x : proc) : nat :=
  match p_pump x with
  | Stopped => 0
  | Waiting => 1
  | Draining _ nx => 2 + length nx + length (p_pipe x StdOut) + length (p_pipe x StdErr)
  end.
Lemma step_measure x e y : step x e y -> p_shut x = true ->
  measure y + pump_steps [e] <= measure x + volume [e] /\ p_shut y = true /\ (p_pump x = Stopped -> p_pump y = Stopped).
Proof.
  intros H Hs. destruct H; cbn [p_shut] in Hs; subst; unfold measure, volume; cbn [p_pump p_pipe pump_steps written p_shut length];
    rewrite ?set_pipe_get; try discriminate Hs.
  - split; [|split; [reflexivity|intros X; first [discriminate X|exact X]]]. destruct s; cbn [stream_eqb]; rewrite ?app_length, ?app_nil_r; cbn [length]; destruct pu; cbn [length]; rewrite ?set_pipe_get; cbn [stream_eqb]; rewrite ?app_length; lia.
  - split; [|split; [reflexivity|intros X; first [discriminate X|exact X]]]. destruct pu; lia.
  - split; [|split; [reflexivity|intros X; first [discriminate X|exact X]]]. destruct pu; lia.
  - split; [|split; [reflexivity|intros X; first [discriminate X|exact X]]]. assert (La : 1 <= length a) by (destruct a; [congruence|cbn; lia]).
    destruct s; cbn [stream_eqb]; rewrite H, app_length; lia.
  - split; [|split; [reflexivity|intros X; first [discriminate X|exact X]]]. destruct s; lia.
  - split; [|split; [reflexivity|intros X; first [discriminate X|exact X]]]. cbn [length]. lia.
  - split; [lia|split; [reflexivity|intros X; first [discriminate X|exact X]]].
  - split; [lia|split; [reflexivity|intros X; first [discriminate X|exact X]]].
Qed.
Theorem C69_terminates_partial : forall h x k y, run proc_init h x -> In Terminates h -> run x k y ->
  pump_steps k <= 4 + volume h + volume k.
Proof.
  intros h x k y Hh Ht Hk.
  assert (Hsh : p_shut x = true).
  { assert (G : forall p h x, run p h x -> (p_shut p = true \/ In Terminates h) -> p_shut x = true).
    { clear. induction 1 as [x|x e y h z Hs Hr IH]; intros [H|H]; auto; try contradiction; apply IH.
      - left. inversion Hs; subst; cbn in *; congruence.
      - destruct H as [->|H]; [left; inversion Hs; subst; reflexivity|right; exact H]. }
    exact (G _ _ _ Hh (or_intror Ht)). }
  assert (Hm : forall p k y, run p k y -> p_shut p = true -> measure y + pump_steps k <= measure p + volume k).
  { clear. induction 1 as [x|x e y h z Hs Hr IH]; intros H; [unfold volume; cbn; lia|].
    destruct (step_measure _ _ _ Hs H) as (A & B & _). specialize (IH B).
    assert (P : pump_steps (e :: h) = pump_steps [e] + pump_steps h) by (destruct e; reflexivity).
    assert (V : volume (e :: h) = volume [e] + volume h).
    { unfold volume. change (e :: h) with ([e] ++ h). rewrite !written_app, !app_length. lia. }
    lia. }
  specialize (Hm _ _ _ Hk Hsh).
  assert (Hx : measure x <= 4 + volume h).
  { pose proof (run_text _ _ _ StdOut Hh) as E1. pose proof (run_text _ _ _ StdErr Hh) as E2. cbn in E1, E2.
    apply (f_equal (@length N)) in E1. apply (f_equal (@length N)) in E2. rewrite app_length in E1, E2.
    assert (Hn : forall s nx, p_pump x = Draining s nx -> length nx <= 1).
    { assert (G : forall p h x, run p h x -> (forall s nx, p_pump p = Draining s nx -> length nx <= 1) -> forall s nx, p_pump x = Draining s nx -> length nx <= 1).
      { clear. induction 1 as [x|x e y h z Hs Hr IH]; intros H; [exact H|]. apply IH. intros s nx E.
        destruct Hs; cbn [p_pump] in *; try discriminate E; try (injection E as <- <-; cbn; auto; lia); eauto.
        all: injection E as <- <-; specialize (H _ _ eq_refl); cbn in H; lia. }
      apply (G _ _ _ Hh). intros s nx E. injection E as <- <-. cbn. lia. }
    unfold measure, volume. destruct (p_pump x) as [s nx| |]; [specialize (Hn s nx eq_refl)| |]; lia. }
  lia.
Qed.
(** Claimed: Terminate returns, whatever the child does. But a child that keeps writing keeps the thread reading, and it is
    killed only afterwards. *)
Theorem C69_terminates_refuted :
  ~ (exists bound, forall h x k y, run proc_init h x -> In Terminates h -> run x k y -> pump_steps k <= bound).
Proof.
  intros (bound & H).
  assert (G : forall n f, f StdOut = [] -> exists k y, run (pr f None true (Draining StdOut [StdErr]) None) k y /\ pump_steps k = n).
  { induction n as [|n IH]; intros f Hf; [exists [], (pr f None true (Draining StdOut [StdErr]) None); split; [constructor|reflexivity]|].
    destruct (IH (set_pipe (set_pipe f StdOut (f StdOut ++ [120%N])) StdOut []) eq_refl) as (k & y & Hk & Hn).
    exists (Writes StdOut [120%N] :: Heard StdOut [120%N] :: k), y. split; [|cbn; rewrite Hn; reflexivity].
    econstructor; [apply SWrite|]. econstructor; [|exact Hk]. apply (SDrain _ None true StdOut [StdErr] None [120%N] []).
    - rewrite set_pipe_get. cbn. rewrite Hf. reflexivity.
    - discriminate.
    - unfold max_piece. cbn. lia. }
  destruct (G (S bound) (fun _ => []) eq_refl) as (k & y & Hk & Hn).
  assert (R : run proc_init [Terminates] (pr (fun _ => []) None true (Draining StdOut [StdErr]) None)).
  { econstructor; [apply STerm|constructor]. }
  specialize (H _ _ _ _ R (or_introl eq_refl) Hk). lia.
Qed.
Example C69_example : exists x,
  run proc_init [Writes StdOut [72;105]%N; Heard StdOut [72]%N; Heard StdOut [105]%N; Silent; Silent; Writes StdErr [33]%N; Heard StdErr [33]%N; Silent; Exits 3; Noticed 3] x /\
  p_noticed x = Some 3%N.
Proof.
  eexists. split; [unfold proc_init|].
  - econstructor; [apply SWrite|]. econstructor; [apply (SDrain _ _ _ StdOut _ _ [72]%N [105]%N); [reflexivity|discriminate|unfold max_piece; cbn; lia]|].
    econstructor; [apply (SDrain _ _ _ StdOut _ _ [105]%N []); [reflexivity|discriminate|unfold max_piece; cbn; lia]|].
    econstructor; [apply SDrainNext; reflexivity|]. econstructor; [apply SDrained; reflexivity|].
    econstructor; [apply SWrite|]. econstructor; [apply (SReadErr _ _ [33]%N []); [reflexivity|reflexivity|discriminate|unfold max_piece; cbn; lia]|].
    econstructor; [apply SDrained; reflexivity|]. econstructor; [apply SExit|]. econstructor; [apply SNoticed|]. constructor.
  - reflexivity.
Qed.
(** ... and until then it can always go on: it does not get stuck. *)
Theorem C69_no_deadlock : forall h x, run proc_init h x -> In Terminates h -> ~ In Ends h -> (forall c, ~ In (Noticed c) h) ->
  exists e y, step x e y /\ pump_steps [e] = 1.
Proof.
  intros h x H Ht He Hn.
  assert (Hsh : p_shut x = true /\ p_pump x <> Stopped).
  { assert (G : forall p h x, run p h x -> ~ In Ends h -> (forall c, ~ In (Noticed c) h) -> (p_shut p = true \/ In Terminates h) -> p_pump p <> Stopped ->
       p_shut x = true /\ p_pump x <> Stopped).
    { clear. induction 1 as [x|x e y h z Hs Hr IH]; intros He Hn Ht Hp.
      - destruct Ht as [Ht|[]]. auto.
      - apply IH.
        + intros X. apply He. right. exact X.
        + intros c X. apply (Hn c). right. exact X.
        + destruct Ht as [Ht|[->|Ht]]; [left|left|right; exact Ht].
          * destruct Hs; cbn in *; congruence.
          * inversion Hs; subst. reflexivity.
        + destruct Hs; cbn in *; try discriminate; try exact Hp.
          * exfalso. apply (Hn c). left. reflexivity.
          * exfalso. apply He. left. reflexivity. }
    apply (G _ _ _ H He Hn (or_intror Ht)). discriminate. }
  destruct Hsh as (Hsh & Hp). destruct x as [f c sh pu no]. cbn in Hsh, Hp. subst sh. destruct pu as [s nx| |]; [| |congruence].
  - destruct (f s) as [|b r] eqn:E.
    + destruct nx as [|t nx]; [exists Silent; eexists; split; [apply SDrained; exact E|reflexivity]|].
      exists Silent. eexists. split; [apply SDrainNext; exact E|reflexivity].
    + exists (Heard s [b]). eexists. split; [apply (SDrain f c true s nx no [b] r); [exact E|discriminate|unfold max_piece; cbn; lia]|reflexivity].
  - destruct c as [c|].
    + exists (Noticed c). eexists. split; [apply SNoticed|reflexivity].
    + exists Ends. eexists. split; [apply SShutdown|reflexivity].
Qed.
