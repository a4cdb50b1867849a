(** C65: starting and deploying cdc_rsync_server. *)
From Verif Require Import Base SpecServer ModelServer ModelText SpecText ProofText.
From Coq Require Import ZArith Lia List.
Import ListNotations.
Local Open Scope N_scope.
Local Notation str := (list N).

Lemma str_eqb_spec a b : str_eqb a b = true <-> a = b.
Proof. unfold str_eqb. destruct (list_eq_dec N.eq_dec a b); split; congruence. Qed.
Lemma str_eqb_false a b : str_eqb a b = false <-> a <> b.
Proof. unfold str_eqb. destruct (list_eq_dec N.eq_dec a b); split; congruence. Qed.

(** ** Up to date *)
(** A server that the check lets pass is up to date. *)
Theorem C65_check_sound : forall client server,
  comp_eq client server = true -> up_to_date client server.
Proof.
  intros a b H. unfold comp_eq in H.
  destruct (str_eqb (c_name a) (c_name b)) eqn:En; cbn [negb] in H; [|discriminate].
  apply str_eqb_spec in En. unfold up_to_date. split; [exact En|].
  destruct (str_eqb (c_version a) dev) eqn:Ed; cbn [negb andb] in H.
  - apply str_eqb_spec in Ed. apply andb_prop in H. destruct H as (H1 & H2).
    apply N.eqb_eq in H1. apply Z.eqb_eq in H2. split; [auto|congruence].
  - apply str_eqb_false in Ed. apply str_eqb_spec in H. split; [intros [X|X]; congruence|auto].
Qed.
(** It lets every up-to-date server pass, except a locally built one for a released client. *)
Theorem C65_check_complete_partial : forall client server,
  up_to_date client server -> (c_version client = dev \/ c_version server <> dev) -> comp_eq client server = true.
Proof.
  intros a b (Hn & Hd & Hr) Hc. unfold comp_eq. rewrite (proj2 (str_eqb_spec _ _) Hn). cbn [negb].
  destruct (str_eqb (c_version a) dev) eqn:Ed; cbn [negb andb].
  - apply str_eqb_spec in Ed. destruct (Hd (or_introl Ed)) as (H1 & H2).
    rewrite (proj2 (N.eqb_eq _ _) H1), (proj2 (Z.eqb_eq _ _) H2). reflexivity.
  - apply str_eqb_false in Ed. destruct Hc as [Hc|Hc]; [congruence|]. apply str_eqb_spec. auto.
Qed.
(** The comment asks for "either build version"; the code looks at the same one twice. *)
Theorem C65_check_complete_refuted :
  ~ (forall client server, up_to_date client server -> comp_eq client server = true).
Proof.
  intros H. specialize (H (comp [49] [97] 5 7%Z) (comp dev [97] 5 7%Z)).
  assert (U : up_to_date (comp [49] [97] 5 7%Z) (comp dev [97] 5 7%Z)).
  { split; [reflexivity|]. split; [auto|]. intros _ X. exfalso. apply X. reflexivity. }
  specialize (H U). vm_compute in H. discriminate H.
Qed.
Theorem C65_check_symmetric_refuted :
  ~ (forall a b, comp_eq a b = comp_eq b a).
Proof. intros H. specialize (H (comp [49] [97] 5 7%Z) (comp dev [97] 5 7%Z)). vm_compute in H. discriminate H. Qed.

(** ** The command line *)
Lemma split_cons sep (s r : str) : ~ In sep s -> split_at sep (s ++ sep :: r) = s :: split_at sep r.
Proof.
  induction s as [|c s IH]; intros H; cbn [app split_at].
  - rewrite N.eqb_refl. reflexivity.
  - destruct (c =? sep) eqn:E; [apply N.eqb_eq in E; exfalso; apply H; left; exact E|].
    rewrite IH; [reflexivity|]. intros X. apply H. right. exact X.
Qed.
Lemma dec_nosp n : ~ In 32 (print_dec n).
Proof.
  destruct (print_dec_ok n) as (H & _). intros X. unfold all_digits in H. rewrite Forall_forall in H.
  apply H in X. lia.
Qed.
Lemma z_nosp z : ~ In 32 (print_z z).
Proof.
  unfold print_z. destruct (z <? 0)%Z; [|apply dec_nosp].
  intros [X|X]; [discriminate X|exact (dec_nosp _ X)].
Qed.
Definition fields (c : component) : list str := [c_version c; c_name c; print_dec (c_size c); print_z (c_mtime c)].
Fixpoint join_args (cs : list component) : str :=
  match cs with
  | [] => []
  | [c] => comp_args c
  | c :: r => comp_args c ++ 32 :: join_args r
  end.
Lemma comp_args_ne c : comp_args c <> [].
Proof. unfold comp_args. intros X. apply app_eq_nil in X. destruct X; discriminate. Qed.
Lemma to_args_acc : forall cs acc, acc <> [] ->
  fold_left (fun args c => args ++ (match args with [] => [] | _ => [32] end) ++ comp_args c) cs acc
  = acc ++ match cs with [] => [] | _ => 32 :: join_args cs end.
Proof.
  induction cs as [|c cs IH]; intros acc Ha; cbn [fold_left].
  - rewrite app_nil_r. reflexivity.
  - rewrite IH.
    + destruct acc as [|x acc]; [congruence|]. cbn [app]. f_equal. rewrite <- app_assoc. f_equal.
      destruct cs; cbn [app join_args]; [rewrite app_nil_r|]; reflexivity.
    + intros X. apply app_eq_nil in X. destruct X; contradiction.
Qed.
Lemma to_args_join cs : to_args cs = join_args cs.
Proof.
  unfold to_args. destruct cs as [|c cs]; [reflexivity|]. cbn [fold_left app].
  rewrite to_args_acc by apply comp_args_ne. destruct cs; cbn [join_args]; [rewrite app_nil_r|]; reflexivity.
Qed.
Definition texts (c : component) : Prop := word (c_version c) /\ word (c_name c).
Lemma split_comp c (r : str) : texts c ->
  split_at 32 (comp_args c ++ 32 :: r) = fields c ++ split_at 32 r.
Proof.
  intros ((_ & Hv) & (_ & Hn)). unfold comp_args, fields.
  rewrite <- app_assoc. cbn [app]. rewrite split_cons by exact Hv. f_equal.
  rewrite <- app_assoc. cbn [app]. rewrite split_cons by exact Hn. f_equal.
  rewrite <- app_assoc. cbn [app]. rewrite split_cons by apply dec_nosp. f_equal.
  apply split_cons. apply z_nosp.
Qed.
Lemma split_comp_last c : texts c -> split_at 32 (comp_args c) = fields c.
Proof.
  intros ((_ & Hv) & (_ & Hn)). unfold comp_args, fields.
  rewrite split_cons by exact Hv. f_equal. rewrite split_cons by exact Hn. f_equal.
  rewrite split_cons by apply dec_nosp. f_equal. apply split_no_sep. apply z_nosp.
Qed.
Lemma split_all cs : Forall texts cs -> cs <> [] -> split_at 32 (join_args cs) = flat_map fields cs.
Proof.
  induction cs as [|c cs IH]; intros H Hne; [congruence|].
  pose proof (Forall_inv H) as Hc. pose proof (Forall_inv_tail H) as Hcs.
  destruct cs as [|c2 cs]; cbn [join_args flat_map].
  - rewrite app_nil_r. apply split_comp_last. exact Hc.
  - rewrite split_comp by exact Hc. f_equal. apply IH; [exact Hcs|discriminate].
Qed.
Lemma dec_head n : exists x r, print_dec n = x :: r /\ is_digit x = true /\ x <> ch_minus /\ x <> ch_plus /\ is_space x = false.
Proof.
  destruct (print_dec_ok n) as (H & Hne & _). destruct (print_dec n) as [|x r]; [congruence|].
  pose proof (Forall_inv H) as Hx. cbn in Hx. exists x, r. split; [reflexivity|].
  unfold is_digit, is_space, ch_minus, ch_plus. split.
  - rewrite (proj2 (N.leb_le _ _)) by lia. rewrite (proj2 (N.leb_le _ _)) by lia. reflexivity.
  - split; [lia|]. split; [lia|].
    rewrite (proj2 (N.eqb_neq _ _)) by lia. rewrite (proj2 (N.leb_gt x 13)) by lia. rewrite andb_false_r. reflexivity.
Qed.
Lemma leading_dec n : leading_digits 0 (print_dec n) = n.
Proof. destruct (print_dec_ok n) as (H & _ & Hv). rewrite leading_digits_spec by exact H. exact Hv. Qed.
Lemma stol_dec bits n : (0 < bits)%Z -> (Z.of_N n < 2 ^ (bits - 1))%Z -> stol bits (print_dec n) = Some (Z.of_N n).
Proof.
  intros Hb Hn. destruct (dec_head n) as (x & r & E & Hd & H1 & H2 & H3).
  pose proof (leading_dec n) as L. rewrite E in *. unfold stol. cbn [skip_space]. rewrite H3.
  rewrite (proj2 (N.eqb_neq _ _) H1), (proj2 (N.eqb_neq _ _) H2). rewrite Hd, L.
  assert (0 < 2 ^ (bits - 1))%Z by (apply Z.pow_pos_nonneg; lia).
  rewrite (proj2 (Z.leb_le _ _)) by lia. rewrite (proj2 (Z.ltb_lt _ _)) by lia. reflexivity.
Qed.
Lemma stol_z bits z : (0 < bits)%Z -> (- 2 ^ (bits - 1) <= z < 2 ^ (bits - 1))%Z -> stol bits (print_z z) = Some z.
Proof.
  intros Hb Hz. unfold print_z. destruct (Z.ltb_spec z 0).
  - destruct (dec_head (Z.to_N (- z))) as (x & r & E & Hd & H1 & H2 & H3).
    pose proof (leading_dec (Z.to_N (- z))) as L. rewrite E in *. unfold stol.
    cbn [skip_space]. change (is_space ch_minus) with false. cbv iota. rewrite N.eqb_refl. cbv iota. rewrite Hd, L.
    rewrite Z2N.id by lia. rewrite Z.opp_involutive.
    rewrite (proj2 (Z.leb_le _ _)) by lia. rewrite (proj2 (Z.ltb_lt _ _)) by lia. reflexivity.
  - rewrite stol_dec; [rewrite Z2N.id by lia; reflexivity|lia|rewrite Z2N.id by lia; lia].
Qed.
Lemma from_fields bits cs : (0 < bits <= 64)%Z -> Forall (fits bits) cs -> from_argv bits (flat_map fields cs) = Some cs.
Proof.
  intros Hb. induction cs as [|c cs IH]; intros H; [reflexivity|].
  pose proof (Forall_inv H) as (H1 & H2).
  cbn [flat_map fields app from_argv]. rewrite stol_dec by (lia || exact H1). rewrite stol_z by (lia || exact H2).
  rewrite (IH (Forall_inv_tail H)). rewrite Z.mod_small.
  - rewrite N2Z.id. destruct c; reflexivity.
  - assert (2 ^ (bits - 1) <= 2 ^ 64)%Z by (apply Z.pow_le_mono_r; lia). lia.
Qed.
Lemma words_fields cs : Forall texts cs -> filter (fun w : str => match w with [] => false | _ => true end) (flat_map fields cs) = flat_map fields cs.
Proof.
  induction cs as [|c cs IH]; intros H; [reflexivity|].
  pose proof (Forall_inv H) as ((Hv & _) & (Hn & _)). cbn [flat_map fields app].
  destruct (print_dec_ok (c_size c)) as (_ & Hs & _).
  assert (Hm : print_z (c_mtime c) <> []).
  { unfold print_z. destruct (c_mtime c <? 0)%Z; [discriminate|]. apply print_dec_ok. }
  cbn [filter]. destruct (c_version c) eqn:E1; [congruence|]. destruct (c_name c) eqn:E2; [congruence|].
  destruct (print_dec (c_size c)) eqn:E3; [congruence|]. destruct (print_z (c_mtime c)) eqn:E4; [congruence|].
  rewrite (IH (Forall_inv_tail H)). reflexivity.
Qed.
(** The components a client puts on the server's command line are what the server reads, be the line
    split by FromCommandLineArgs or by the shell. *)
Theorem C65_command_line : forall bits cs,
  (0 < bits <= 64)%Z -> Forall (fun c => word (c_version c) /\ word (c_name c)) cs -> Forall (fits bits) cs ->
  from_args bits (to_args cs) = Some cs /\ from_argv bits (words (to_args cs)) = Some cs.
Proof.
  intros bits cs Hb Ht Hf. rewrite to_args_join. destruct cs as [|c cs]; [split; reflexivity|].
  unfold from_args, words. rewrite split_all by (exact Ht || discriminate).
  rewrite words_fields by exact Ht. split; apply from_fields; assumption.
Qed.
Example C65_command_line_example :
  to_args [comp dev (filename Linux) 1234 (-5)] =
    [68;69;86;32;99;100;99;95;114;115;121;110;99;95;115;101;114;118;101;114;32;49;50;51;52;32;45;53] /\
  from_args 64 (to_args [comp dev (filename Linux) 1234 (-5); comp [49] [97] 0 7%Z]) = Some [comp dev (filename Linux) 1234 (-5); comp [49] [97] 0 7%Z].
Proof. split; vm_compute; reflexivity. Qed.

(** The server goes on to listen only for a client that names one component, an up-to-date one. *)
Theorem C65_server_checks : forall bits argv own,
  server_main bits argv own = None ->
  exists c, from_argv bits argv = Some [c] /\ up_to_date c own.
Proof.
  intros bits argv own H. unfold server_main in H. destruct (Nat.ltb (length argv) 4); [discriminate|].
  destruct (from_argv bits argv) as [[|c [|c2 cs]]|]; cbn [comps_eq] in H; try discriminate.
  - rewrite andb_true_r in H. destruct (comp_eq c own) eqn:E; [|discriminate]. exists c. split; [reflexivity|].
    apply C65_check_sound. exact E.
  - rewrite andb_false_r in H. discriminate.
Qed.

(** ** What Run does, whatever the device does *)
Section Run.
  Variable E : Type.
  Variable do_start : E -> arch -> E * attempt.
  Variable do_detect : E -> E * option arch.
  Variable do_deploy : E -> arch -> E * bool.
  Variable do_sync : E -> E * sync_result.
  Variable do_stop : E -> E * option (N * str).
  Local Notation run := (run E do_start do_detect do_deploy do_sync do_stop).
  Local Notation finish := (finish E do_sync do_stop).
  Local Notation deploy_and_go := (deploy_and_go E do_start do_deploy do_sync do_stop).

  Lemma finish_log e log e2 l v : finish e log = (e2, l, v) -> l = log ++ [SyncFiles] \/ l = log ++ [SyncFiles; Stop].
  Proof.
    unfold ModelServer.finish. destruct (do_sync e) as [e1 s].
    destruct s; try (intros H; inversion H; auto; fail).
    - destruct (do_stop e1) as [e3 [[code err]|]].
      + destruct (_ && _); [intros H; inversion H; subst; right; rewrite <- app_assoc; reflexivity|].
        destruct (negb _); intros H; inversion H; subst; right; rewrite <- app_assoc; reflexivity.
      + intros H; inversion H; subst; right; rewrite <- app_assoc; reflexivity.
    - destruct (do_stop e1) as [e3 [[code err]|]].
      + destruct (_ && _); [intros H; inversion H; subst; right; rewrite <- app_assoc; reflexivity|].
        destruct (negb _); intros H; inversion H; subst; right; rewrite <- app_assoc; reflexivity.
      + intros H; inversion H; subst; right; rewrite <- app_assoc; reflexivity.
  Qed.
  Lemma start_status_redeploy remote x code : start_status remote x = Redeploy code -> x = Exited code /\ remote = true /\ ~ 52 <= code <= 53.
  Proof.
    unfold start_status. destruct x as [|c|]; try discriminate.
    destruct ((kOutOfDate <? c) && (c <=? kMax)) eqn:Ec; [discriminate|].
    destruct remote; [|discriminate]. intros H. inversion H; subst. split; [reflexivity|]. split; [reflexivity|].
    unfold kOutOfDate, kMax in Ec. intros Hc. rewrite (proj2 (N.ltb_lt _ _)), (proj2 (N.leb_le _ _)) in Ec by lia. discriminate.
  Qed.
  (** The rest of a run after the start attempts: [log] is followed by at most one deployment, the
      start of what was deployed, the sync. *)
  Definition tail_of (remote : bool) (a : arch) (st : started) (t : list action) : Prop :=
    match st with
    | Redeploy _ => t = [Deploy a] \/ t = [Deploy a; Start a] \/ t = [Deploy a; Start a; SyncFiles] \/ t = [Deploy a; Start a; SyncFiles; Stop]
    | StartOk => t = [SyncFiles] \/ t = [SyncFiles; Stop]
    | StartFailed _ => t = []
    end.
  Lemma deploy_and_go_log e remote a st log e2 l v :
    deploy_and_go e remote a st log = (e2, l, v) -> exists t, l = log ++ t /\ tail_of remote a st t.
  Proof.
    unfold ModelServer.deploy_and_go. destruct st as [|code|code]; cbn [tail_of]; intros H.
    - apply finish_log in H. destruct H as [H|H]; eauto.
    - destruct (do_deploy e a) as [e1 ok]. destruct ok; cbn [negb] in H.
      + destruct (do_start e1 a) as [e3 x]. destruct (start_status remote x).
        * apply finish_log in H. rewrite <- !app_assoc in H. cbn [app] in H. destruct H as [H|H]; eauto 6.
        * inversion H; subst. rewrite <- app_assoc. eauto.
        * inversion H; subst. rewrite <- app_assoc. eauto.
      + inversion H; subst. eauto.
    - inversion H; subst. exists []. rewrite app_nil_r. auto.
  Qed.
  (** All shapes a run can have. *)
  Lemma run_log e remote a e2 l v : run e remote a = (e2, l, v) ->
    let x1 := snd (do_start e a) in
    let e1 := fst (do_start e a) in
    (exists t, l = Start a :: t /\ tail_of remote a (start_status remote x1) t /\ (forall code, start_status remote x1 = Redeploy code -> code = kOutOfDate \/ remote = false)) \/
    (exists code, start_status remote x1 = Redeploy code /\ code <> kOutOfDate /\ remote = true /\
      (l = [Start a; Detect] \/
       exists b, snd (do_detect e1) = Some b /\
        ((b = a /\ exists t, l = Start a :: Detect :: t /\ tail_of remote a (Redeploy code) t) \/
         (b <> a /\ exists t, l = Start a :: Detect :: Start b :: t /\ tail_of remote b (start_status remote (snd (do_start (fst (do_detect e1)) b))) t)))).
  Proof.
    unfold ModelServer.run. destruct (do_start e a) as [e1 x1]. cbn [fst snd].
    destruct (start_status remote x1) as [|code|code] eqn:Es; intros H.
    - apply deploy_and_go_log in H. destruct H as (t & -> & Ht). left. exists t. split; [reflexivity|]. split; [exact Ht|discriminate].
    - destruct (start_status_redeploy _ _ _ Es) as (_ & Hr & _). subst remote. cbn [andb] in H.
      destruct (N.eqb_spec code kOutOfDate) as [Hc|Hc]; cbn [negb] in H.
      + apply deploy_and_go_log in H. destruct H as (t & -> & Ht). left. exists t. split; [reflexivity|].
        split; [exact Ht|]. intros code2 X. inversion X; subst. auto.
      + right. exists code. split; [reflexivity|]. split; [exact Hc|]. split; [reflexivity|].
        destruct (do_detect e1) as [e3 [b|]]; [|inversion H; subst; left; reflexivity].
        right. exists b. cbn [fst snd]. split; [reflexivity|].
        destruct (arch_eqb b a) eqn:Ea; cbn [negb] in H.
        * left. assert (b = a) as -> by (destruct b, a; cbn in Ea; congruence). split; [reflexivity|].
          apply deploy_and_go_log in H. destruct H as (t & -> & Ht). exists t. split; [reflexivity|exact Ht].
        * right. split; [intros ->; destruct a; discriminate|].
          destruct (do_start e3 b) as [e4 x4]. cbn [snd].
          apply deploy_and_go_log in H. destruct H as (t & -> & Ht). exists t. split; [reflexivity|exact Ht].
    - apply deploy_and_go_log in H. destruct H as (t & -> & Ht). left. exists t. split; [reflexivity|]. split; [exact Ht|discriminate].
  Qed.

  (** A run starts the server at most three times and deploys it at most once; a local sync starts
      it once and neither deploys nor asks for the architecture. *)
Theorem C65_bounded : forall e remote a e2 log v,
    run e remote a = (e2, log, v) ->
    (count is_start log <= 3 /\ count is_deploy log <= 1 /\ count is_detect log <= 1)%nat /\
    (remote = false -> count is_start log = 1%nat /\ count is_deploy log = 0%nat /\ count is_detect log = 0%nat).
  Proof.
    intros e remote a e2 l v H. apply run_log in H. cbv zeta in H. unfold count.
    destruct H as [(t & -> & Ht & Hc)|(code & Es & Hc & Hr & [->|(b & Hb & [(-> & t & -> & Ht)|(Hba & t & -> & Ht)])])].
    - destruct (start_status remote (snd (do_start e a))) as [|code|code] eqn:Es; cbn [tail_of] in Ht.
      + destruct Ht as [->| ->]; cbn; repeat split; try lia.
      + apply start_status_redeploy in Es. destruct Es as (_ & -> & _).
        split; [|discriminate]. destruct Ht as [->|[->|[->| ->]]]; cbn; repeat split; lia.
      + subst t. cbn; repeat split; try lia.
    - subst remote. split; [|discriminate]. cbn. repeat split; lia.
    - subst remote. split; [|discriminate]. cbn [tail_of] in Ht. destruct Ht as [->|[->|[->| ->]]]; cbn; repeat split; lia.
    - subst remote. split; [|discriminate]. clear Es. destruct (start_status true _) as [|code2|code2]; cbn [tail_of] in Ht.
      + destruct Ht as [->| ->]; cbn; repeat split; lia.
      + destruct Ht as [->|[->|[->| ->]]]; cbn; repeat split; lia.
      + subst t. cbn. repeat split; lia.
  Qed.
  (** The server is deployed only to a remote device on which starting it just failed with a code
      that does not mean that it had passed its own check, and for the architecture that was tried; next,
      that one is started. *)
Theorem C65_deployed_for_a_reason : forall e remote a e2 log v l1 b l2,
    run e remote a = (e2, log, v) -> log = l1 ++ Deploy b :: l2 ->
    remote = true /\
    (l2 = [] \/ exists l3, l2 = Start b :: l3) /\
    exists e0 code, snd (do_start e0 b) = Exited code /\ ~ 52 <= code <= 53 /\
      ((l1 = [Start b] /\ e0 = e) \/ (l1 = [Start b; Detect] /\ e0 = e) \/
       (l1 = [Start a; Detect; Start b] /\ e0 = fst (do_detect (fst (do_start e a))))).
  Proof.
    intros e remote a e2 l v l1 b l2 H Hl. apply run_log in H. cbv zeta in H.
    assert (U : forall (p t : list action), count is_deploy p = 0%nat -> t = [Deploy b] \/ t = [Deploy b; Start b] \/ t = [Deploy b; Start b; SyncFiles] \/ t = [Deploy b; Start b; SyncFiles; Stop] -> l1 ++ Deploy b :: l2 = p ++ t -> l1 = p /\ (l2 = [] \/ exists l3, l2 = Start b :: l3)).
    { intros p t Hp Ht. revert p Hp. clear Hl H. induction l1 as [|x l1 IH]; intros p Hp X.
      - destruct p as [|y p]; cbn [app] in X.
        + split; [reflexivity|]. destruct Ht as [->|[->|[->| ->]]]; inversion X; subst; eauto.
        + inversion X; subst. discriminate Hp.
      - destruct p as [|y p]; cbn [app] in X.
        + exfalso. assert (Hin : In (Deploy b) (l1 ++ Deploy b :: l2)) by (apply in_or_app; right; left; reflexivity).
          destruct Ht as [->|[->|[->| ->]]]; inversion X as [[X1 X2]]; rewrite X2 in Hin; cbn in Hin;
            repeat (destruct Hin as [Hin|Hin]; [discriminate Hin|]); exact Hin.
        + inversion X; subst. destruct (IH p) as (-> & Hx); [destruct y; exact Hp || discriminate Hp|assumption|auto]. }
    assert (V : forall (p t : list action) c, t = [Deploy c] \/ t = [Deploy c; Start c] \/ t = [Deploy c; Start c; SyncFiles] \/ t = [Deploy c; Start c; SyncFiles; Stop] -> ~ In (Deploy b) p -> In (Deploy b) (p ++ t) -> c = b).
    { intros p t c Ht Hp Hin. apply in_app_or in Hin. destruct Hin as [Hin|Hin]; [contradiction|].
      destruct Ht as [->|[->|[->| ->]]]; cbn in Hin; destruct Hin as [X|Hin]; try congruence;
        repeat (destruct Hin as [Hin|Hin]; [discriminate Hin|]); contradiction. }
    assert (Hin : In (Deploy b) l) by (rewrite Hl; apply in_or_app; right; left; reflexivity).
    destruct H as [(t & -> & Ht & Hc)|(code & Es & Hc & Hr & [->|(c & Hb & [(-> & t & -> & Ht)|(Hba & t & -> & Ht)])])].
    - destruct (start_status remote (snd (do_start e a))) as [|code|code] eqn:Es; cbn [tail_of] in Ht.
      + exfalso. destruct Ht as [->| ->]; cbn in Hin; repeat (destruct Hin as [Hin|Hin]; [discriminate Hin|]); exact Hin.
      + apply start_status_redeploy in Es. destruct Es as (Ex & -> & Hcode).
        assert (a = b) as -> by (apply (V [Start a] t a Ht); [intros [X|X]; [discriminate X|exact X]|exact Hin]).
        destruct (U [Start b] t eq_refl Ht (eq_sym Hl)) as (-> & Hx). split; [reflexivity|]. split; [exact Hx|].
        exists e, code. split; [exact Ex|]. split; [exact Hcode|]. auto.
      + subst t. exfalso. cbn in Hin. destruct Hin as [Hin|Hin]; [discriminate Hin|exact Hin].
    - exfalso. cbn in Hin. repeat (destruct Hin as [Hin|Hin]; [discriminate Hin|]); exact Hin.
    - apply start_status_redeploy in Es. destruct Es as (Ex & -> & Hcode). cbn [tail_of] in Ht.
      assert (a = b) as -> by (apply (V [Start a; Detect] t a Ht); [cbn; intros [X|[X|X]]; discriminate || exact X|exact Hin]).
      destruct (U [Start b; Detect] t eq_refl Ht (eq_sym Hl)) as (-> & Hx). split; [reflexivity|]. split; [exact Hx|].
      exists e, code. split; [exact Ex|]. split; [exact Hcode|]. auto.
    - subst remote. destruct (start_status true (snd (do_start (fst (do_detect (fst (do_start e a)))) c))) as [|code2|code2] eqn:Es2; cbn [tail_of] in Ht.
      + exfalso. destruct Ht as [->| ->]; cbn in Hin; repeat (destruct Hin as [Hin|Hin]; [discriminate Hin|]); exact Hin.
      + apply start_status_redeploy in Es2. destruct Es2 as (Ex & _ & Hcode).
        assert (c = b) as -> by (apply (V [Start a; Detect; Start c] t c Ht); [cbn; intros [X|[X|[X|X]]]; discriminate || exact X|exact Hin]).
        destruct (U [Start a; Detect; Start b] t eq_refl Ht (eq_sym Hl)) as (-> & Hx). split; [reflexivity|]. split; [exact Hx|].
        exists (fst (do_detect (fst (do_start e a)))), code2. split; [exact Ex|]. split; [exact Hcode|]. auto.
      + subst t. exfalso. cbn in Hin. repeat (destruct Hin as [Hin|Hin]; [discriminate Hin|]); exact Hin.
  Qed.

  Lemma finish_verdict e log e2 l v : finish e log = (e2, l, v) ->
    let e1 := fst (do_sync e) in
    match v with
    | Done => snd (do_sync e) = SyncOk /\ exists err, do_stop e1 = (e2, Some (0, err))
    | NotSynced => snd (do_sync e) = SyncFailed
    | NotStopped => snd (do_sync e) <> SyncFailed /\ snd (do_stop e1) = None
    | Disconnected => snd (do_sync e) = SyncEof /\ exists code err, snd (do_stop e1) = Some (code, err) /\ (err = [] \/ code = 0)
    | ServerFailed code err => code <> 0 /\ snd (do_sync e) <> SyncFailed /\ snd (do_stop e1) = Some (code, err) /\ (snd (do_sync e) = SyncEof -> err <> [])
    | _ => False
    end.
  Proof.
    unfold ModelServer.finish. destruct (do_sync e) as [e1 s]. cbn [fst snd].
    destruct s; [| |intros H; inversion H; subst; reflexivity];
      (destruct (do_stop e1) as [e3 [[code err]|]]; [|intros H; inversion H; subst; cbn; split; [discriminate|reflexivity]]); cbn [fst snd].
    - rewrite andb_false_r. destruct (N.eqb_spec code 0) as [Hz|Hz]; cbn [negb]; intros H; inversion H; subst.
      + split; [reflexivity|]. eauto.
      + split; [exact Hz|]. split; [discriminate|]. split; [reflexivity|]. discriminate.
    - rewrite andb_true_r. destruct err as [|x err].
      + intros H; inversion H; subst. split; [reflexivity|]. eauto 6.
      + destruct (N.eqb_spec code 0) as [Hz|Hz]; cbn [negb]; intros H; inversion H; subst.
        * split; [reflexivity|]. eauto 6.
        * split; [exact Hz|]. split; [discriminate|]. split; [reflexivity|]. intros _; discriminate.
  Qed.
  Lemma deploy_and_go_verdict e remote a st log e2 l v :
    deploy_and_go e remote a st log = (e2, l, v) ->
    v = NotStarted \/ v = NotDeployed \/
    exists e0 log0, finish e0 log0 = (e2, l, v) /\ (e0 = e /\ st = StartOk \/ exists e1, do_start e1 a = (e0, Up)).
  Proof.
    unfold ModelServer.deploy_and_go. destruct st as [|code|code]; intros H.
    - right; right. exists e, log. auto.
    - destruct (do_deploy e a) as [e1 ok]. destruct ok; cbn [negb] in H; [|inversion H; auto].
      destruct (do_start e1 a) as [e3 x] eqn:Ed. destruct (start_status remote x) eqn:Ex; try (inversion H; auto; fail).
      right; right. eexists e3, _. split; [exact H|]. right. exists e1. rewrite Ed.
      unfold start_status in Ex. destruct x as [|c|]; [discriminate| |reflexivity].
      destruct (_ && _); [discriminate|]. destruct (negb remote); discriminate.
    - inversion H; auto.
  Qed.
  Lemma up_of remote x : start_status remote x = StartOk -> x = Up.
  Proof.
    unfold start_status. destruct x as [|c|]; [discriminate| |reflexivity].
    destruct (_ && _); [discriminate|]. destruct (negb remote); discriminate.
  Qed.
  Lemma run_finish e remote a e2 log v : run e remote a = (e2, log, v) ->
    v = NotStarted \/ v = NotDeployed \/ v = NotDetected \/
    exists e0 b e1 log0, do_start e0 b = (e1, Up) /\ finish e1 log0 = (e2, log, v).
  Proof.
    unfold ModelServer.run. destruct (do_start e a) as [e1 x1] eqn:E1.
    assert (G : forall ex st b lg, (st = StartOk -> exists e0, do_start e0 b = (ex, Up)) ->
              deploy_and_go ex remote b st lg = (e2, log, v) ->
              v = NotStarted \/ v = NotDeployed \/ v = NotDetected \/
              exists e0 b e1 log0, do_start e0 b = (e1, Up) /\ finish e1 log0 = (e2, log, v)).
    { intros ex st b lg Hst H. apply deploy_and_go_verdict in H.
      destruct H as [H|[H|(e0 & lg0 & H & Hs)]]; [auto|auto|]. right; right; right.
      destruct Hs as [(-> & Hs)|(ey & Hs)].
      - destruct (Hst Hs) as (ez & Hz). exists ez, b, ex, lg0. auto.
      - exists ey, b, e0, lg0. auto. }
    destruct (start_status remote x1) as [|code|code] eqn:Es; intros H.
    - refine (G _ _ _ _ _ H). intros _. exists e. rewrite E1. rewrite (up_of _ _ Es). reflexivity.
    - destruct (remote && negb (code =? kOutOfDate)).
      + destruct (do_detect e1) as [e3 [b|]]; [|inversion H; auto].
        destruct (negb (arch_eqb b a)).
        * destruct (do_start e3 b) as [e4 x4] eqn:E4. refine (G _ _ _ _ _ H). intros Hs. exists e3. rewrite E4, (up_of _ _ Hs). reflexivity.
        * refine (G _ _ _ _ _ H). discriminate.
      + refine (G _ _ _ _ _ H). discriminate.
    - refine (G _ _ _ _ _ H). discriminate.
  Qed.
  (** Success means: a server came up, the sync was complete, and the server exited with 0. *)
Theorem C65_success : forall e remote a e2 log,
    run e remote a = (e2, log, Done) ->
    exists e0 b e1 e3 err, do_start e0 b = (e1, Up) /\ do_sync e1 = (e3, SyncOk) /\ do_stop e3 = (e2, Some (0, err)).
  Proof.
    intros e remote a e2 log H. apply run_finish in H.
    destruct H as [H|[H|[H|(e0 & b & e1 & lg & Hs & H)]]]; try discriminate H.
    apply finish_verdict in H. cbv zeta in H. destruct H as (Hy & err & Hz).
    exists e0, b, e1, (fst (do_sync e1)), err. split; [exact Hs|]. split; [destruct (do_sync e1); cbn in *; subst; reflexivity|exact Hz].
  Qed.
  (** A server that fails with a message during the sync: code and message reach the user. *)
Theorem C65_server_error_reported : forall e remote a e1 e2 e3 s code err,
    do_start e a = (e1, Up) -> do_sync e1 = (e2, s) -> s <> SyncFailed ->
    do_stop e2 = (e3, Some (code, err)) -> code <> 0 -> err <> [] ->
    snd (run e remote a) = ServerFailed code err.
  Proof.
    intros e remote a e1 e2 e3 s code err H1 H2 Hs H3 Hc He. unfold ModelServer.run. rewrite H1. cbn [start_status].
    unfold ModelServer.deploy_and_go, ModelServer.finish. rewrite H2.
    destruct err as [|x err]; [congruence|].
    destruct s; [| |congruence]; rewrite H3; cbn [andb]; rewrite (proj2 (N.eqb_neq _ _) Hc); reflexivity.
  Qed.
End Run.

(** ** A device that works *)
Lemma comp_eq_refl c : comp_eq c c = true.
Proof.
  apply C65_check_complete_partial.
  - split; [reflexivity|]. split; auto.
  - destruct (list_eq_dec N.eq_dec (c_version c) dev); auto.
Qed.
Lemma main_checks bin a own : good_bin bin ->
  server_main (long_bits a) (words (to_args [bin a])) own = if comp_eq (bin a) own then None else Some kOutOfDate.
Proof.
  intros H. destruct (H a) as (Hv & Hn & Hf).
  assert (Ht : Forall texts [bin a]) by (constructor; [split; assumption|constructor]).
  assert (Hb : (0 < long_bits a <= 64)%Z) by (destruct a; cbn; lia).
  destruct (C65_command_line (long_bits a) [bin a] Hb Ht) as (_ & Hc); [constructor; [exact Hf|constructor]|].
  unfold server_main. rewrite Hc.
  assert (Hl : length (words (to_args [bin a])) = 4%nat).
  { unfold words. rewrite to_args_join. rewrite split_all by (exact Ht || discriminate). rewrite words_fields by exact Ht. reflexivity. }
  rewrite Hl. change (Nat.ltb 4 4) with false. cbv iota. cbn [comps_eq]. rewrite andb_true_r. reflexivity.
Qed.
(** What a run leaves on a device: *)
Lemma dev_run_eq bin d guess : good_bin bin -> plain_code (d_missing d) -> plain_code (d_wrong d) ->
  let a := d_arch d in
  let fresh := match d_server d with Some own => comp_eq (bin a) own | None => false end in
  let pre := if arch_eqb guess a then (match d_server d with None => [Start a; Detect] | Some _ => [Start a] end)
             else [Start guess; Detect; Start a] in
  dev_run bin d guess =
    ((if fresh then d else dv a (Some (bin a)) (d_missing d) (d_wrong d)),
     pre ++ (if fresh then [] else [Deploy a; Start a]) ++ [SyncFiles; Stop], Done).
Proof.
  intros Hb Hm Hw a fresh pre.
  assert (Ea : arch_eqb a a = true) by (destruct a; reflexivity).
  assert (S1 : forall own, d_server d = Some own -> dev_start bin d a = (d, if comp_eq (bin a) own then Up else Exited 51)).
  { intros own Ho. unfold dev_start. fold a. rewrite Ea, Ho. cbn [negb]. rewrite main_checks by exact Hb. destruct (comp_eq (bin a) own); reflexivity. }
  assert (S0 : d_server d = None -> dev_start bin d a = (d, Exited (d_missing d))).
  { intros Ho. unfold dev_start. fold a. rewrite Ea, Ho. reflexivity. }
  assert (Sd : dev_start bin (dv a (Some (bin a)) (d_missing d) (d_wrong d)) a = (dv a (Some (bin a)) (d_missing d) (d_wrong d), Up)).
  { unfold dev_start. cbn [d_arch d_server]. rewrite Ea. cbn [negb]. rewrite main_checks by exact Hb. rewrite comp_eq_refl. reflexivity. }
  assert (Dd : dev_deploy bin d a = (dv a (Some (bin a)) (d_missing d) (d_wrong d), true)).
  { unfold dev_deploy. fold a. rewrite Ea. reflexivity. }
  assert (R : forall c, plain_code c -> start_status true (Exited c) = Redeploy c /\ (c =? kOutOfDate) = false).
  { intros c Hc. unfold plain_code in Hc. unfold start_status, kOutOfDate, kMax. cbn [negb]. split.
    - destruct (N.ltb_spec 51 c); destruct (N.leb_spec c 53); cbn [andb]; try reflexivity. exfalso. apply Hc. lia.
    - apply N.eqb_neq. intros ->. apply Hc. lia. }
  assert (GoF : forall lg, finish device dev_sync dev_stop d lg = (d, lg ++ [SyncFiles; Stop], Done)).
  { intros lg. unfold finish, dev_sync, dev_stop. cbn. rewrite <- app_assoc. reflexivity. }
  set (d2 := dv a (Some (bin a)) (d_missing d) (d_wrong d)) in *.
  assert (GoD : forall c lg, deploy_and_go device (dev_start bin) (dev_deploy bin) dev_sync dev_stop d true a (Redeploy c) lg
          = (d2, lg ++ [Deploy a; Start a; SyncFiles; Stop], Done)).
  { intros c lg. unfold deploy_and_go. rewrite Dd. cbn [negb]. rewrite Sd. cbn [start_status].
    unfold finish, dev_sync, dev_stop. cbn. rewrite <- !app_assoc. reflexivity. }
  unfold dev_run, run.
  destruct (arch_eqb guess a) eqn:Eg.
  - assert (guess = a) as -> by (destruct guess, a; cbn in Eg; congruence).
    unfold pre, fresh. rewrite ?Eg. destruct (d_server d) as [own|] eqn:Eo.
    + rewrite (S1 own eq_refl). destruct (comp_eq (bin a) own).
      * cbn [start_status]. unfold deploy_and_go. rewrite GoF. reflexivity.
      * cbn [start_status kOutOfDate kMax negb N.ltb N.leb N.compare Pos.compare Pos.compare_cont andb N.eqb Pos.eqb].
        change (start_status true (Exited 51)) with (Redeploy 51). cbv iota. rewrite GoD. reflexivity.
    + rewrite (S0 eq_refl). destruct (R _ Hm) as (R1 & R2). rewrite R1, R2. cbn [negb andb]. cbn [dev_detect]. fold a. rewrite Ea. cbn [negb].
      rewrite GoD. reflexivity.
  - assert (Sw : dev_start bin d guess = (d, Exited (d_wrong d))).
    { unfold dev_start. fold a. rewrite Eg. reflexivity. }
    rewrite Sw. destruct (R _ Hw) as (R1 & R2). rewrite R1, R2. cbn [negb andb]. cbn [dev_detect]. fold a.
    assert (Eg2 : arch_eqb a guess = false) by (destruct guess, a; cbn in *; congruence). rewrite Eg2. cbn [negb].
    unfold pre, fresh. rewrite ?Eg. destruct (d_server d) as [own|] eqn:Eo.
    + rewrite (S1 own eq_refl). destruct (comp_eq (bin a) own).
      * cbn [start_status]. unfold deploy_and_go. rewrite GoF. reflexivity.
      * change (start_status true (Exited 51)) with (Redeploy 51). rewrite GoD. reflexivity.
    + rewrite (S0 eq_refl). destruct (R _ Hm) as (R3 & R4). rewrite R3. rewrite GoD. reflexivity.
Qed.
(** On a device that works, a run succeeds whatever the guess, ends with an up-to-date server, and deploys only if
    the server there was missing or did not pass the check. *)
Theorem C65_converges : forall bin d guess d2 log v,
  good_bin bin -> plain_code (d_missing d) -> plain_code (d_wrong d) ->
  dev_run bin d guess = (d2, log, v) ->
  v = Done /\ d_arch d2 = d_arch d /\
  (exists own, d_server d2 = Some own /\ up_to_date (bin (d_arch d)) own) /\
  ((exists own, d_server d = Some own /\ comp_eq (bin (d_arch d)) own = true) -> d2 = d /\ count is_deploy log = 0%nat) /\
  (~ (exists own, d_server d = Some own /\ comp_eq (bin (d_arch d)) own = true) -> d_server d2 = Some (bin (d_arch d)) /\ count is_deploy log = 1%nat).
Proof.
  intros bin d guess d2 log v Hb Hm Hw H. rewrite dev_run_eq in H by assumption. cbv zeta in H.
  set (a := d_arch d) in *.
  assert (Hpre : count is_deploy (if arch_eqb guess a then match d_server d with None => [Start a; Detect] | Some _ => [Start a] end else [Start guess; Detect; Start a]) = 0%nat)
    by (destruct (arch_eqb guess a); [destruct (d_server d)|]; reflexivity).
  set (pre := if arch_eqb guess a then match d_server d with None => [Start a; Detect] | Some _ => [Start a] end else [Start guess; Detect; Start a]) in *.
  assert (Hcount : forall x y, count is_deploy (x ++ y) = (count is_deploy x + count is_deploy y)%nat)
    by (intros; unfold count; rewrite filter_app, app_length; reflexivity).
  injection H as H1 H2 H3. subst v. split; [reflexivity|].
  destruct (match d_server d with Some own => comp_eq (bin a) own | None => false end) eqn:Ef.
  - destruct (d_server d) as [own|] eqn:Eo; [|discriminate]. subst d2 log. split; [reflexivity|].
    split; [exists own; split; [exact Eo|apply C65_check_sound; exact Ef]|].
    split; [intros _; split; [reflexivity|rewrite Hcount, Hpre; reflexivity]|].
    intros X. exfalso. apply X. eauto.
  - subst d2 log. cbn [d_arch d_server]. split; [reflexivity|].
    split; [exists (bin a); split; [reflexivity|apply C65_check_sound, comp_eq_refl]|].
    split.
    + intros (own & Ho & Hc). rewrite Ho in Ef. congruence.
    + intros _. split; [reflexivity|]. rewrite !Hcount, Hpre. reflexivity.
Qed.
(** ... so that the next run of the same client deploys nothing. *)
Theorem C65_deployed_once : forall bin d guess guess2 d2 d3 log log2 v v2,
  good_bin bin -> plain_code (d_missing d) -> plain_code (d_wrong d) ->
  dev_run bin d guess = (d2, log, v) -> dev_run bin d2 guess2 = (d3, log2, v2) ->
  v2 = Done /\ d3 = d2 /\ count is_deploy log2 = 0%nat.
Proof.
  intros bin d guess guess2 d2 d3 log log2 v v2 Hb Hm Hw H1 H2.
  assert (K : d_missing d2 = d_missing d /\ d_wrong d2 = d_wrong d).
  { rewrite dev_run_eq in H1 by assumption. cbv zeta in H1. injection H1 as H1 _ _. subst d2.
    destruct (match d_server d with Some own => _ | None => false end); split; reflexivity. }
  destruct K as (K1 & K2).
  assert (F : exists own, d_server d2 = Some own /\ comp_eq (bin (d_arch d2)) own = true).
  { rewrite dev_run_eq in H1 by assumption. cbv zeta in H1. injection H1 as H1 _ _. subst d2.
    destruct (match d_server d with Some own => _ | None => false end) eqn:Ef.
    - destruct (d_server d) as [own|] eqn:Eo; [|discriminate]. eauto.
    - cbn. exists (bin (d_arch d)). split; [reflexivity|apply comp_eq_refl]. }
  destruct (C65_converges bin d2 guess2 d3 log2 v2) as (Hv & _ & _ & Hf & _); try assumption; try (rewrite K1 || rewrite K2; assumption).
  destruct (Hf F) as (-> & Hc). auto.
Qed.
(** A server binary with a date after 2038 (and nothing else) defeats this on Windows, where long has
    32 bits: the server aborts while it reads its command line, deploying it does not help. *)
Theorem C65_windows_2038_refuted :
  exists bin d, (forall a, word (c_version (bin a)) /\ word (c_name (bin a)) /\ fits 64 (bin a)) /\
    plain_code (d_missing d) /\ plain_code (d_wrong d) /\
    forall guess, snd (dev_run bin d guess) = NotStarted.
Proof.
  exists (fun a => comp dev (filename a) 1000000 2147483648%Z), (dv Windows None 1 127).
  split.
  - intros a. unfold word, fits. cbn [c_version c_name c_size c_mtime].
    split; [split; [discriminate|cbn; intuition discriminate]|].
    split; [destruct a; (split; [discriminate|cbn; intuition discriminate])|]. vm_compute. repeat split; discriminate.
  - split; [intros X; destruct X as [X _]; vm_compute in X; congruence|].
    split; [intros X; destruct X as [_ X]; vm_compute in X; congruence|].
    intros guess. destruct guess; vm_compute; reflexivity.
Qed.
Example C65_example :
  let bin := fun a => comp [50;46;48] (filename a) 1000 1700000000%Z in
  good_bin bin /\
  dev_run bin (dv Linux (Some (comp [49;46;48] (filename Linux) 1000 1700000000%Z)) 127 1) Windows =
    (dv Linux (Some (bin Linux)) 127 1, [Start Windows; Detect; Start Linux; Deploy Linux; Start Linux; SyncFiles; Stop], Done).
Proof.
  cbv zeta. split.
  - intros a. unfold word, fits. cbn [c_version c_name c_size c_mtime].
    split; [split; [discriminate|cbn; intuition discriminate]|].
    split; [destruct a; (split; [discriminate|cbn; intuition discriminate])|]. destruct a; vm_compute; repeat split; discriminate.
  - vm_compute. reflexivity.
Qed.
