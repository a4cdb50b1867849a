(** Property C35: wildcard filters. *)
From Verif Require Import Base ModelPathFilter SpecPathFilter ProofPathFilter.

(** Whenever the matcher returns, its answer is the glob relation (except for
    a run of two or more stars against the empty path, see below). *)
Theorem C35_answer_is_glob :
  forall pat s b, nul_free s -> nul_free pat -> ~ degenerate pat s ->
  is_match_string pat s = Ok b -> (b = true <-> glob pat s).
Proof. exact string_sound. Qed.
Print Assumptions C35_answer_is_glob.

(** A path that matches is always accepted, without out-of-bounds reads. *)
Theorem C35_matching_path_accepted :
  forall pat s, nul_free s -> ~ degenerate pat s ->
  glob pat s -> is_match_string pat s = Ok true.
Proof. exact match_accepted. Qed.
Print Assumptions C35_matching_path_accepted.

(** The first matching rule decides, the default is "included". *)
Theorem C35_first_rule_decides :
  forall rules path b, nul_free path ->
  Forall (fun r => nul_free (r_pattern r) /\ ~ degenerate (r_pattern r) path) rules ->
  filter_is_match rules path = Ok b -> filter_spec rules path b.
Proof. exact filter_sound. Qed.
Print Assumptions C35_first_rule_decides.

Theorem C35_spec_unambiguous :
  forall rules path b1 b2,
  filter_spec rules path b1 -> filter_spec rules path b2 -> b1 = b2.
Proof. exact filter_spec_unique. Qed.
Print Assumptions C35_spec_unambiguous.

(** Memory safety holds for patterns in which at most one ordinary character
    precedes a non-final star ... *)
Theorem C35_no_overread_partial :
  forall rules path, nul_free path ->
  Forall (fun r => nul_free (r_pattern r) /\ bounded_prefix 0 (r_pattern r)) rules ->
  exists b, filter_is_match rules path = Ok b.
Proof. exact filter_total. Qed.
Print Assumptions C35_no_overread_partial.

(** ... but not in general: pattern "ab*c" on path "ab" reads behind the
    terminating NUL (path_filter.cc:34-35: path_len still counts the characters
    already consumed). *)
Theorem C35_no_overread_refuted :
  exists pat s, nul_free s /\ nul_free pat /\ is_match_string pat s = UB.
Proof.
  exists [97; 98; 42; 99]%N, [97; 98]%N.
  split; [|split]; [intros H; repeat destruct H as [H|H]; try discriminate; contradiction ..|].
  vm_compute. reflexivity.
Qed.
Print Assumptions C35_no_overread_refuted.

(** "**" does not match the empty path although it should. *)
Theorem C35_double_star_empty_refuted :
  exists pat, glob pat [] /\ is_match_string pat [] = Ok false.
Proof.
  exists [ch_star; ch_star]. split; [|reflexivity].
  apply stars_glob; [repeat constructor|discriminate].
Qed.
Print Assumptions C35_double_star_empty_refuted.

(** Non-vacuity: "a*.t?t" against "ab.txt" satisfies all hypotheses. *)
Example C35_ex : let pat := [97; 42; 46; 116; 63; 116]%N in let s := [97; 98; 46; 116; 120; 116]%N in
  nul_free s /\ nul_free pat /\ ~ degenerate pat s /\ bounded_prefix 0 pat /\
  is_match_string pat s = Ok true /\ is_match_string pat (98%N :: s) = Ok false.
Proof.
  cbv zeta. repeat split; try (vm_compute; auto; fail).
  - intros H; repeat destruct H as [H|H]; try discriminate; contradiction.
  - intros H; repeat destruct H as [H|H]; try discriminate; contradiction.
  - intros (H & _). discriminate.
Qed.
