(** C28 edit distance, C29 name suggestions. *)
From Coq Require Import List Arith Bool Ascii String NArith Lia Permutation Sorted.
From Verif Require Import M_Path M_Names M_Array M_Lev S_Lev P_Lev P_Near.
Import ListNotations.

(** The computed number is the smallest number of edits, when the shorter string is below 1024. *)
Theorem C28_distance_is_minimal : forall a b, Nat.min (List.length a) (List.length b) < N.to_nat 1024 ->
  edit_distance (distance (fun c => c) a b) a b.
Proof. intros a b H. pose proof (distance_spec (fun c => c) a b H) as Q. now rewrite !map_id in Q. Qed.
Print Assumptions C28_distance_is_minimal.
(** Ignoring ASCII case: the smallest number of edits between the lower-cased strings. *)
Theorem C28_distance_ignoring_case : forall a b, Nat.min (List.length a) (List.length b) < N.to_nat 1024 ->
  edit_distance (distance lower_char a b) (lower a) (lower b).
Proof. exact (distance_spec lower_char). Qed.
Print Assumptions C28_distance_ignoring_case.
(** From 1024 on the answer is just the longer length: two equal strings are reported as far apart. *)
Theorem C28_long_strings_refuted : exists a, distance (fun c => c) a a <> 0 /\ edit_distance 0 a a.
Proof.
  exists (repeat "a"%char capacity). split; [|split; [constructor|intros; lia]].
  unfold distance. rewrite repeat_length. 
  destruct (Nat.eqb_spec capacity 0) as [E|E]; [unfold capacity in E; lia|].
  rewrite Nat.ltb_irrefl. rewrite repeat_length, Nat.leb_refl. exact E.
Qed.
Print Assumptions C28_long_strings_refuted.
Example C28_case : distance (fun c => c) (L "kitten") (L "sitting") = 3 /\ distance lower_char (L "Unit") (L "UNITS") = 1 /\
  edit_distance 3 (L "kitten") (L "sitting").
Proof.
  split; [vm_compute; reflexivity|]. split; [vm_compute; reflexivity|].
  change 3 with (distance (fun c => c) (L "kitten") (L "sitting")). apply C28_distance_is_minimal. vm_compute. lia.
Qed.

(** The candidates that pass the tests of the code, with their distances. *)
Definition passing (input : str) (max : N) (names : list str) : list (str * nat) :=
  map (fun n => (n, distance lower_char input n))
      (filter (fun n => eligible input n max (distance lower_char input n)) names).
Definition increasing (l : list (str * nat)) : Prop := StronglySorted (fun a b => snd a <= snd b) l.

(** The suggestions and the passing targets left out: together they are all the passing targets, the
    suggestions are in order of distance, none left out is closer, and some are left out only if the list
    is full. *)
Theorem C29_suggestions_are_best : forall input max cap names, input <> [] -> 0 < cap ->
  exists offered left_out, nearest input max cap names = Some offered /\
    Permutation (passing input max names) (offered ++ left_out) /\ increasing offered /\
    (forall a b, In a offered -> In b left_out -> snd a <= snd b) /\
    List.length offered <= cap /\ (left_out <> [] -> List.length offered = cap).
Proof.
  intros input max cap names NI HC.
  destruct (loop_inv input max cap names HC ([], List.length input + 1) [] [] (inv0 cap _)) as (st&dr&E&I).
  exists (fst st), dr. destruct I as [I1 I2 I3 I4 I5 I6]. split; [|cbn in I1; auto 10].
  unfold nearest. destruct input; [congruence|]. now rewrite E.
Qed.
Print Assumptions C29_suggestions_are_best.

(** Which targets pass: those within the limit that can be reached from the input by insertions only or by
    deletions only (their distance is the difference in length). *)
Theorem C29_which_targets_pass : forall input max n, Nat.min (List.length input) (List.length n) < N.to_nat 1024 ->
  forall d, edit_distance d (lower input) (lower n) ->
  (eligible input n max (distance lower_char input n) = true <->
   (N.of_nat d <= max)%N /\ (d + List.length input = List.length n \/ d + List.length n = List.length input)).
Proof.
  intros input max n HL d HD. rewrite (dist_unique _ _ _ _ (C28_distance_ignoring_case input n HL) HD).
  destruct HD as [HE _]. apply edits_len in HE. unfold lower in HE. rewrite !map_length in HE.
  unfold eligible. destruct (N.ltb_spec max (N.of_nat d)); [split; [discriminate|lia]|].
  destruct (Nat.ltb_spec (List.length input) (List.length n)); rewrite negb_true_iff, Nat.ltb_ge; split; intros; lia.
Qed.
Print Assumptions C29_which_targets_pass.

(** So a one-letter mistake is not corrected: a same-length target at distance 1 is never suggested, whatever
    the other targets. *)
Theorem C29_mistyped_letter_refuted : exists input target, edit_distance 1 (lower input) (lower target) /\
  forall max cap names offered, nearest input max cap names = Some offered -> 0 < cap -> ~ In target (map fst offered).
Proof.
  exists (L "foa"), (L "foo"). split.
  { replace 1 with (distance lower_char (L "foa") (L "foo")) by (vm_compute; reflexivity).
    apply C28_distance_ignoring_case. vm_compute. lia. }
  intros max cap names off E HC HI.
  destruct (C29_suggestions_are_best (L "foa") max cap names ltac:(discriminate) HC) as (off'&lo&E'&P&_).
  rewrite E in E'. injection E' as <-. apply in_map_iff in HI. destruct HI as ([n d]&Q&HI). cbn in Q. subst n.
  assert (HP : In (L "foo", d) (passing (L "foa") max names)).
  { eapply Permutation_in; [apply Permutation_sym; exact P|]. apply in_app_iff. now left. }
  unfold passing in HP. apply in_map_iff in HP. destruct HP as (n&Q&HP). apply (f_equal fst) in Q. cbn [fst] in Q. rewrite Q in HP.
  apply filter_In in HP. destruct HP as [_ HP].
  assert (E1 : distance lower_char (L "foa") (L "foo") = 1) by (vm_compute; reflexivity). rewrite E1 in HP.
  assert (E2 : eligible (L "foa") (L "foo") max 1 = false) by (unfold eligible; destruct (max <? N.of_nat 1)%N; reflexivity).
  congruence.
Qed.
Print Assumptions C29_mistyped_letter_refuted.
Example C29_case : nearest (L "tes") 4294967295 2 [L "TestsAndMore"; L "test"; L "all"; L "Tests"; L "te"] = Some [(L "test", 1); (L "te", 1)].
Proof. vm_compute. reflexivity. Qed.
