(** C101: a worker gives what its owner allows. *)
From Coq Require Import List Arith Bool NArith ZArith QArith Qround Lia.
From Verif Require Import M_Bytes M_Idle.
Import ListNotations.
Local Open Scope N_scope.

Local Ltac zcases := repeat match goal with
  | |- context [Z.eqb ?a ?b] => destruct (Z.eqb_spec a b)
  | H : context [Z.eqb ?a ?b] |- _ => destruct (Z.eqb_spec a b)
  end.

(** * Specification. *)
(** How many readings were quiet, and how many were not. *)
Definition quiets (l : list reading) : nat := List.length (filter quiet l).
Definition loud (l : list reading) : nat := List.length (filter (fun r => negb (quiet r)) l).
(** The detection after the readings [l], the first of them first. *)
Definition after (l : list reading) : detect := updates l fresh.

(** * Lemmas. *)
Lemma after_app a b : after (a ++ b) = updates b (after a).
Proof. unfold after, updates. apply fold_left_app. Qed.
Definition good (d : detect) : Prop := (0 <= smooth d <= 10 /\ (smooth d = 10 -> idle d = true) /\ (smooth d = 0 -> idle d = false) /\ 0 <= share_smooth d <= 10)%Z.
Lemma update_good r d : good d -> good (update r d).
Proof.
  intros (A&B&C&D). unfold good, update, clamp. cbn [smooth idle share_smooth]. repeat split; try lia; intros H.
  - zcases; try reflexivity; lia.
  - rewrite H. reflexivity.
Qed.
Lemma updates_good l : forall d, good d -> good (updates l d).
Proof. induction l as [|r l IH]; intros d G; [exact G|]. apply IH. now apply update_good. Qed.
Lemma after_good l : good (after l).
Proof. apply updates_good. unfold good, fresh. cbn. repeat split; try lia; intros; reflexivity || discriminate. Qed.

Lemma still_busy : forall l d c, idle d = false -> (0 <= smooth d <= Z.of_nat c)%Z -> (c + quiets l < 10)%nat -> idle (updates l d) = false.
Proof.
  induction l as [|r l IH]; intros d c I Sm C; [exact I|]. unfold quiets in *. cbn [filter] in C. cbn [updates fold_left]. destruct (quiet r) eqn:Q.
  - cbn [List.length] in C. apply (IH _ (S c)); [| |lia]; unfold update, clamp; cbn [idle smooth]; rewrite Q; [|lia]. rewrite I. zcases; try reflexivity; lia.
  - apply (IH _ c); [| |exact C]; unfold update, clamp; cbn [idle smooth]; rewrite Q; [|lia]. rewrite I. zcases; try reflexivity; lia.
Qed.
Lemma still_idle : forall l d c, idle d = true -> (10 - 2 * Z.of_nat c <= smooth d <= 10)%Z -> (c + loud l < 5)%nat -> idle (updates l d) = true.
Proof.
  induction l as [|r l IH]; intros d c I Sm C; [exact I|]. unfold loud in *. cbn [filter] in C. cbn [updates fold_left]. destruct (quiet r) eqn:Q; cbn [negb] in C.
  - apply (IH _ c); [| |exact C]; unfold update, clamp; cbn [idle smooth]; rewrite Q; [|lia]. rewrite I. zcases; try reflexivity; lia.
  - cbn [List.length] in C. apply (IH _ (S c)); [| |lia]; unfold update, clamp; cbn [idle smooth]; rewrite Q; [|lia]. rewrite I. zcases; try reflexivity; lia.
Qed.
Lemma goes_down : forall l d, (forall r, In r l -> quiet r = false) -> good d -> (smooth (updates l d) <= Z.max 0 (smooth d - 2 * Z.of_nat (List.length l)))%Z.
Proof.
  induction l as [|r l IH]; intros d Q G; [cbn; destruct G; lia|]. cbn [updates fold_left List.length]. pose proof (update_good r d G) as G'.
  specialize (IH (update r d) (fun x I => Q x (or_intror I)) G'). unfold updates in IH.
  assert (E : smooth (update r d) = clamp (smooth d - 2)) by (unfold update; cbn [smooth]; now rewrite (Q r (or_introl eq_refl))).
  rewrite E in IH. unfold clamp in IH. destruct G as (G&_). lia.
Qed.
Lemma goes_up : forall l d, (forall r, In r l -> quiet r = true) -> good d -> (Z.min 10 (smooth d + Z.of_nat (List.length l)) <= smooth (updates l d))%Z.
Proof.
  induction l as [|r l IH]; intros d Q G; [cbn; destruct G; lia|]. cbn [updates fold_left List.length]. pose proof (update_good r d G) as G'.
  specialize (IH (update r d) (fun x I => Q x (or_intror I)) G'). unfold updates in IH.
  assert (E : smooth (update r d) = clamp (smooth d + 1)) by (unfold update; cbn [smooth]; now rewrite (Q r (or_introl eq_refl))).
  rewrite E in IH. unfold clamp in IH. destruct G as (G&_). lia.
Qed.

(** * Theorems. *)
(** Never more than the owner set, and not once a thread more takes work. *)
Theorem C101_limit : forall mode cpus restart disk memory l threads, let n := offered mode cpus restart disk memory (after l) in
  n <= cpus /\ N.of_nat (List.length (filter (enabled n) (seq 1 threads))) = N.min (N.of_nat threads) n.
Proof.
  intros mode cpus restart disk memory l threads n. split.
  - unfold n, offered. destruct (restart || negb disk || negb memory); [lia|]. destruct (mode =? WHEN_IDLE); [destruct (idle (after l)); lia|].
    destruct (mode =? PROPORTIONAL); [|destruct (mode =? DISABLED); lia]. destruct (share (after l)) as [q|]; [|lia].
    destruct (Qle_bool 0 q && Qle_bool q 1) eqn:B; [|lia]. apply andb_true_iff in B as [B0 B1]. apply Qle_bool_iff in B0, B1.
    assert (H : (Qfloor (inject_Z (Z.of_N cpus) * q) <= Z.of_N cpus)%Z).
    { rewrite <- (Qfloor_Z (Z.of_N cpus)) at 2. apply Qfloor_resp_le. rewrite <- (Qmult_1_r (inject_Z (Z.of_N cpus))) at 2.
      rewrite !(Qmult_comm (inject_Z (Z.of_N cpus))). apply Qmult_le_compat_r; [exact B1|]. change 0%Q with (inject_Z 0). rewrite <- Zle_Qle. lia. }
    lia.
  - generalize n. intros k. clear. unfold enabled. induction threads as [|t IH]; [cbn; lia|].
    rewrite seq_S, filter_app, app_length. cbn [filter Nat.add]. destruct (N.leb_spec (N.of_nat (S t)) k); cbn [List.length]; lia.
Qed.
Print Assumptions C101_limit.

(** Nothing when disabled, when a restart is due, or when disk or memory are short; all of it when dedicated. *)
Theorem C101_modes : forall cpus restart disk memory l,
  offered DISABLED cpus restart disk memory (after l) = 0 /\
  (restart = true \/ disk = false \/ memory = false -> forall mode, offered mode cpus restart disk memory (after l) = 0) /\
  offered DEDICATED cpus false true true (after l) = cpus /\
  (idle (after l) = true -> offered WHEN_IDLE cpus false true true (after l) = cpus) /\
  (idle (after l) = false -> offered WHEN_IDLE cpus restart disk memory (after l) = 0).
Proof.
  intros. unfold offered. repeat split.
  - now destruct (restart || negb disk || negb memory).
  - intros [->|[->| ->]] mode; cbn [orb negb]; rewrite ?orb_true_r; reflexivity.
  - intros ->. reflexivity.
  - intros ->. cbn. now destruct (restart || negb disk || negb memory).
Qed.
Print Assumptions C101_modes.

(** A worker is idle after ten quiet readings, and not before ten of them have been seen since the start or since five readings in a row that were not. *)
Theorem C101_becomes_idle : forall l more, (forall r, In r more -> quiet r = true) -> List.length more = 10%nat -> idle (after (l ++ more)) = true.
Proof.
  intros l more Q L. rewrite after_app. pose proof (goes_up more (after l) Q (after_good l)) as U. pose proof (updates_good more _ (after_good l)) as (A&B&_).
  pose proof (after_good l) as (C&_). apply B. rewrite L in U. lia.
Qed.
Theorem C101_not_early : forall l, (quiets l < 10)%nat -> idle (after l) = false.
Proof. intros l Q. apply (still_busy l fresh 0); [reflexivity|cbn; lia|exact Q]. Qed.
Theorem C101_becomes_busy : forall l busy more, (forall r, In r busy -> quiet r = false) -> List.length busy = 5%nat -> (quiets more < 10)%nat -> idle (after (l ++ busy ++ more)) = false.
Proof.
  intros l busy more Q L M. rewrite app_assoc, after_app. pose proof (goes_down busy (after l) Q (after_good l)) as D. rewrite <- after_app in D.
  pose proof (after_good (l ++ busy)) as (A&_&B&_). pose proof (after_good l) as (C&_). rewrite L in D.
  apply (still_busy more _ 0); [apply B; lia|lia|exact M].
Qed.
(** Fewer than five readings that are not quiet do not end it. *)
Theorem C101_stays_idle : forall l more rest, (forall r, In r more -> quiet r = true) -> List.length more = 10%nat -> (loud rest < 5)%nat -> idle (after (l ++ more ++ rest)) = true.
Proof.
  intros l more rest Q L M. pose proof (C101_becomes_idle l more Q L) as I. rewrite app_assoc, after_app. pose proof (goes_up more (after l) Q (after_good l)) as U. rewrite <- after_app in U.
  pose proof (after_good (l ++ more)) as (A&_). pose proof (after_good l) as (C&_). rewrite L in U.
  apply (still_idle rest _ 0); [exact I|lia|exact M].
Qed.
Print Assumptions C101_becomes_idle.
Print Assumptions C101_not_early.
Print Assumptions C101_becomes_busy.
Print Assumptions C101_stays_idle.

(** In proportion: the share that counts is one that was read (or none yet), and after ten equal readings it is that one, whatever came before, numbers or not. *)
Lemma share_from : forall l d, share (updates l d) = share d \/ In (share (updates l d)) (map free l).
Proof.
  induction l as [|r l IH]; intros d; [now left|]. cbn [updates fold_left map]. destruct (IH (update r d)) as [E|E]; unfold updates in *; [|right; now right].
  rewrite E. unfold update. cbn [share]. match goal with |- context [if ?b then _ else _] => destruct b end; [right; now left|now left].
Qed.
Lemma settles : forall q F0 k d, good d -> (forall r, In r k -> free r = Some q) -> share d = F0 ->
  share (updates k d) = Some q \/
  (at_least (Some q) F0 = true /\ share (updates k d) = F0 /\ (share_smooth d + Z.of_nat (List.length k) <= share_smooth (updates k d) /\ (k <> [] -> share_smooth (updates k d) < 10))%Z) \/
  (at_least (Some q) F0 = false /\ share (updates k d) = F0 /\ (share_smooth (updates k d) <= share_smooth d - 2 * Z.of_nat (List.length k) /\ (k <> [] -> 0 < share_smooth (updates k d)))%Z).
Proof.
  intros q F0 k. induction k as [|r k IH] using rev_ind; intros d G Q E.
  - right. cbn [updates fold_left List.length]. destruct (at_least (Some q) F0); [left|right]; repeat split; auto; try lia; contradiction.
  - specialize (IH d G (fun x I => Q x (in_or_app _ _ _ (or_introl I))) E). assert (Qr : free r = Some q) by (apply Q, in_or_app; right; now left).
    unfold updates in *. rewrite fold_left_app, app_length. cbn [fold_left List.length]. pose proof (updates_good k d G) as Gk. unfold updates in Gk. set (d' := fold_left _ k d) in *.
    destruct Gk as (_&_&_&Gk). unfold update, clamp. cbn [share share_smooth]. rewrite Qr. destruct IH as [IH|[(A&B&C&_)|(A&B&C&_)]].
    + left. rewrite IH. match goal with |- context [if ?b then Some q else Some q] => now destruct b end.
    + rewrite B, A. match goal with |- context [if ?b then Some q else F0] => destruct b eqn:X end; [now left|right; left]. apply orb_false_iff in X as [X Y]. apply Z.eqb_neq in X, Y.
      repeat split; auto; lia.
    + rewrite B, A. match goal with |- context [if ?b then Some q else F0] => destruct b eqn:X end; [now left|right; right]. apply orb_false_iff in X as [X Y]. apply Z.eqb_neq in X, Y.
      repeat split; auto; lia.
Qed.
Theorem C101_share : forall l,
  (share (after l) = Some 0%Q \/ In (share (after l)) (map free l)) /\
  (forall q more, (forall r, In r more -> free r = Some q) -> List.length more = 10%nat -> share (after (l ++ more)) = Some q) /\
  (forall q cpus, share (after l) = Some q -> (0 <= q <= 1)%Q -> offered PROPORTIONAL cpus false true true (after l) = Z.to_N (Qfloor (inject_Z (Z.of_N cpus) * q))) /\
  (forall cpus, (forall q, share (after l) = Some q -> ~ (0 <= q <= 1)%Q) -> offered PROPORTIONAL cpus false true true (after l) = 0).
Proof.
  intros l. split; [exact (share_from l fresh)|]. split; [|split].
  - intros q more Q L. rewrite after_app. pose proof (after_good l) as (_&_&_&B). pose proof (updates_good more _ (after_good l)) as (_&_&_&B').
    assert (Ne : more <> []) by (intros ->; discriminate).
    destruct (settles q _ more (after l) (after_good l) Q eq_refl) as [E|[(_&_&C&D)|(_&_&C&D)]]; [exact E| |]; specialize (D Ne); rewrite L in C; lia.
  - intros q cpus E [A B]. unfold offered. cbn [N.eqb orb negb]. rewrite E. apply Qle_bool_iff in A, B. now rewrite A, B.
  - intros cpus H. unfold offered. cbn [N.eqb orb negb]. destruct (share (after l)) as [q|]; [|reflexivity]. destruct (Qle_bool 0 q && Qle_bool q 1) eqn:X; [|reflexivity].
    apply andb_true_iff in X as [X Y]. apply Qle_bool_iff in X, Y. exfalso. exact (H q eq_refl (conj X Y)).
Qed.
Print Assumptions C101_share.

(** Settings that were saved are those of the next start, whatever was in memory, but not more CPUs than there are. *)
Lemma read_all n old x f : x < 256 ^ N.of_nat n -> read n old (le_bytes n x ++ f) = (x, f).
Proof.
  intros H. unfold read. pose proof (le_bytes_len n x) as L. pose proof (le_bytes_len n old) as L'.
  assert (A : firstn n (le_bytes n x ++ f) = le_bytes n x) by (rewrite firstn_app, L, Nat.sub_diag, firstn_O, app_nil_r; apply firstn_all2; lia).
  assert (B : skipn n (le_bytes n x ++ f) = f) by (rewrite skipn_app, L, Nat.sub_diag, skipn_all2 by lia; reflexivity).
  rewrite A, B, L, (skipn_all2 (le_bytes n old)), app_nil_r by lia. rewrite le_value_le_bytes. now rewrite N.mod_small.
Qed.
Theorem C101_settings_partial : forall junk cores s, s_mode s < 2 ^ 32 -> threshold s < 2 ^ 32 -> s_cpus s < 2 ^ 32 -> minimized s < 2 ->
  construct junk cores (Some (save s)) = Settings (s_mode s) (threshold s) (N.min cores (s_cpus s)) (minimized s) 1024.
Proof.
  intros junk cores s A B C D. unfold construct, load, save. change [70; 87; 83; 4] with (le_bytes 4 72570694). cbn [threshold s_cpus minimized free_memory].
  rewrite (read_all 4) by reflexivity. change (72570694 / 16777216) with 4. cbn [N.ltb N.leb N.compare Pos.compare Pos.compare_cont orb].
  rewrite !(read_all 4) by assumption. rewrite <- (app_nil_r (le_bytes 1 (minimized s))). rewrite (read_all 1) by (cbn; lia). reflexivity.
Qed.
Print Assumptions C101_settings_partial.
(** No file, or one of another version, changes nothing. *)
Theorem C101_other_file : forall junk cores f, (f = None \/ exists b rest, f = Some (b ++ rest) /\ List.length b = 4%nat /\ (nth 3 b 0 = 0 \/ 4 < nth 3 b 0) /\ Forall (fun x => x < 256) b) ->
  construct junk cores f = Settings WHEN_IDLE 20 (N.min cores (N.max 1 (cores / 2))) 0 1024.
Proof.
  intros junk cores f [->|(b&rest&->&L&V&W)]; [reflexivity|]. destruct b as [|x0 [|x1 [|x2 [|x3 [|]]]]]; try discriminate. cbn [nth] in V.
  unfold construct, load, read. cbn [app firstn List.length skipn le_bytes le_value].
  repeat match goal with H : Forall _ (_ :: _) |- _ => inversion H; clear H; subst end.
  assert (E : (x0 + 256 * (x1 + 256 * (x2 + 256 * (x3 + 256 * 0)))) / 16777216 = x3) by (symmetry; apply (N.div_unique _ _ _ (x0 + 256 * x1 + 65536 * x2)); lia).
  rewrite E. destruct (N.ltb_spec x3 1), (N.ltb_spec 4 x3); cbn [orb]; try reflexivity. lia.
Qed.
Print Assumptions C101_other_file.

(** But the free memory to leave is not saved; of a file that ends after its header the mode is what was in memory; and a mode that does not exist is taken for dedicated. *)
Theorem C101_memory_refuted : exists s, s_cpus s <= 8 /\ forall junk, free_memory (construct junk 8 (Some (save s))) <> free_memory s.
Proof. exists (Settings 1 20 4 0 4096). split; [cbn; lia|]. intros junk. rewrite C101_settings_partial by reflexivity. discriminate. Qed.
Theorem C101_junk_refuted : exists f, forall junk, junk < 2 ^ 32 -> s_mode (construct junk 8 (Some f)) = junk.
Proof.
  exists [70; 87; 83; 4]. intros junk H. unfold construct, load. change (read 4 0 [70; 87; 83; 4]) with (72570694, @nil N). change (72570694 / 16777216) with 4.
  cbn [N.ltb N.leb N.compare Pos.compare Pos.compare_cont orb]. unfold read at 1. cbn [firstn List.length skipn app].
  change (read 4 20 []) with (20, @nil N). change (read 4 (N.max 1 (8 / 2)) []) with (4, @nil N). cbn [threshold s_cpus minimized].
  rewrite le_value_le_bytes. change (256 ^ N.of_nat 4) with (2 ^ 32). rewrite N.mod_small by exact H. reflexivity.
Qed.
Theorem C101_mode_refuted : forall mode cpus l, 3 < mode -> offered mode cpus false true true (after l) = cpus.
Proof.
  intros mode cpus l H. unfold offered, WHEN_IDLE, PROPORTIONAL, DISABLED. destruct (N.eqb_spec mode 1), (N.eqb_spec mode 3), (N.eqb_spec mode 0); try lia. reflexivity.
Qed.
Print Assumptions C101_memory_refuted.
Print Assumptions C101_junk_refuted.
Print Assumptions C101_mode_refuted.

(** Twelve quiet readings, four that are not, then one more; half of the machine is free. *)
Definition on := Reading true (Some (1 # 2)).
Definition off := Reading false (Some (1 # 2)).
Example C101_case : idle (after (repeat on 9)) = false /\ idle (after (repeat on 12 ++ repeat off 4)) = true /\ idle (after (repeat on 12 ++ repeat off 5)) = false /\
  offered WHEN_IDLE 8 false true true (after (repeat on 10)) = 8 /\ offered PROPORTIONAL 9 false true true (after (repeat on 10)) = 4 /\
  construct 77 4 (Some (save (Settings 3 30 6 1 1024))) = Settings 3 30 4 1 1024.
Proof. vm_compute. repeat split. Qed.
