(** Proofs about XCode projects: identifiers, orders and texts. *)
From Coq Require Import String Ascii List Arith Bool NArith Lia Permutation DecimalString DecimalN DecimalFacts.
From Verif Require Import M_Path M_Names M_Array M_Sort M_Dir M_Drv M_Xcode S_Xcode S_Sort P_Sort P_Drv P_Dir2 P_Xcode.
Import ListNotations.
Local Open Scope list_scope.
Local Notation "'length'" := List.length.

(** *** Identifiers *)
Definition digit_of (c : ascii) : N := let n := N_of_ascii c in if (n <? 65)%N then (n - 48)%N else (n - 55)%N.
Lemma digit_of_hex n : digit_of (hex_digit n) = (n mod 16)%N.
Proof.
  unfold hex_digit. assert (H : (n mod 16 < 16)%N) by (apply N.mod_lt; discriminate). remember (n mod 16)%N as k. clear Heqk n.
  assert (E : k = N.of_nat (N.to_nat k)) by (now rewrite Nnat.N2Nat.id). assert (L : N.to_nat k < 16) by lia. rewrite E at 2. generalize dependent (N.to_nat k). clear.
  intros n _ L. do 16 (destruct n as [|n]; [reflexivity|]). lia.
Qed.
Lemma hex8_inj n m : (n < 4294967296)%N -> (m < 4294967296)%N -> hex8 n = hex8 m -> n = m.
Proof.
  intros A B E. apply (f_equal (map digit_of)) in E. unfold hex8 in E. cbn [map] in E. rewrite !digit_of_hex in E. injection E as E0 E1 E2 E3 E4 E5 E6 E7.
  assert (S : forall x, (x < 4294967296)%N -> (x = x mod 16 + 16 * ((x / 16) mod 16 + 16 * ((x / 256) mod 16 + 16 * ((x / 4096) mod 16 + 16 * ((x / 65536) mod 16
      + 16 * ((x / 1048576) mod 16 + 16 * ((x / 16777216) mod 16 + 16 * ((x / 268435456) mod 16))))))))%N).
  { intros x LX. pose proof (N.div_mod' x 16) as D0. pose proof (N.div_mod' (x / 16) 16) as D1. pose proof (N.div_mod' (x / 256) 16) as D2. pose proof (N.div_mod' (x / 4096) 16) as D3.
    pose proof (N.div_mod' (x / 65536) 16) as D4. pose proof (N.div_mod' (x / 1048576) 16) as D5. pose proof (N.div_mod' (x / 16777216) 16) as D6. 
    rewrite N.div_div in D1, D2, D3, D4, D5, D6 by discriminate.
    assert (D7 : ((x / 268435456) mod 16 = x / 268435456)%N) by (apply N.mod_small; apply N.div_lt_upper_bound; [discriminate|exact LX]).
    change (16 * 16)%N with 256%N in D1. change (256 * 16)%N with 4096%N in D2. change (4096 * 16)%N with 65536%N in D3. change (65536 * 16)%N with 1048576%N in D4.
    change (1048576 * 16)%N with 16777216%N in D5. change (16777216 * 16)%N with 268435456%N in D6. rewrite D7.
    revert D0 D1 D2 D3 D4 D5 D6. generalize (x / 16)%N (x / 256)%N (x / 4096)%N (x / 65536)%N (x / 1048576)%N (x / 16777216)%N (x / 268435456)%N. intros a b c d e f g.
    generalize (x mod 16)%N (a mod 16)%N (b mod 16)%N (c mod 16)%N (d mod 16)%N (e mod 16)%N (f mod 16)%N. intros. lia. }
  rewrite (S n A), (S m B). now rewrite E0, E1, E2, E3, E4, E5, E6, E7.
Qed.
Lemma L_inj a b : L a = L b -> a = b.
Proof. unfold L. intros H. rewrite <- (string_of_list_ascii_of_string a), <- (string_of_list_ascii_of_string b). now f_equal. Qed.
Lemma of_iter k u : N.of_uint (Nat.iter k Decimal.D0 u) = N.of_uint u.
Proof. induction k as [|k IH]; [reflexivity|]. cbn [Nat.iter]. exact IH. Qed.
Lemma dec8_inj n m : dec8 n = dec8 m -> n = m.
Proof.
  unfold dec8. intros H. apply L_inj in H. apply (f_equal NilEmpty.uint_of_string) in H. rewrite !NilEmpty.usu in H. injection H as H.
  apply (f_equal N.of_uint) in H. rewrite !of_iter in H. now rewrite !Unsigned.of_to in H.
Qed.
Lemma ref_inj n m : ref_id n = ref_id m -> n = m. Proof. intros H. apply app_inv_head in H. now apply dec8_inj. Qed.
Lemma build_inj n m : build_id n = build_id m -> n = m. Proof. intros H. apply app_inv_head in H. now apply dec8_inj. Qed.
Lemma group_inj n m : (n < 4294967296)%N -> (m < 4294967296)%N -> group_id n = group_id m -> n = m. Proof. intros A B H. apply app_inv_head in H. now apply hex8_inj. Qed.
Lemma config_inj n m : (n < 4294967296)%N -> (m < 4294967296)%N -> config_id n = config_id m -> n = m. Proof. intros A B H. apply app_inv_head in H. now apply hex8_inj. Qed.

(** *** Orders *)
Lemma nth_error_same {A} : forall l m : list A, (forall k, nth_error l k = nth_error m k) -> l = m.
Proof.
  induction l as [|x l IH]; intros [|y m] H; [reflexivity|discriminate (H 0)|discriminate (H 0)|]. pose proof (H 0) as E. injection E as ->. f_equal. apply IH. intros k. apply (H (S k)).
Qed.
Lemma position_nth l k x : NoDup l -> nth_error l k = Some x -> position l x = N.of_nat k.
Proof.
  unfold position. intros N E. assert (H : index_of (Nat.eqb x) l = Some k); [|now rewrite H]. revert k E. induction l as [|y l IH]; intros [|k] E; cbn in *; try discriminate.
  - injection E as ->. now rewrite Nat.eqb_refl.
  - inversion N; subst. destruct (Nat.eqb_spec x y) as [->|]; [apply nth_error_In in E; contradiction|]. now rewrite (IH H2 k E).
Qed.
Lemma map_position l : NoDup l -> map (position l) l = map N.of_nat (seq 0 (length l)).
Proof.
  intros N. apply nth_error_same. intros k. rewrite !nth_error_map. destruct (nth_error l k) as [x|] eqn:E.
  - cbn. rewrite (position_nth _ _ _ N E). assert (L : k < length l) by (apply nth_error_Some; congruence). 
    rewrite (nth_error_nth' (seq 0 (length l)) 0) by (now rewrite seq_length). now rewrite seq_nth.
  - apply nth_error_None in E. cbn. symmetry. destruct (nth_error (seq 0 (length l)) k) eqn:F; [|reflexivity]. assert (k < length (seq 0 (length l))) by (apply nth_error_Some; congruence). rewrite seq_length in H. lia.
Qed.
Lemma position_inj l i j : NoDup l -> In i l -> In j l -> position l i = position l j -> i = j.
Proof.
  intros N I J H. apply In_nth_error in I as (a&A). apply In_nth_error in J as (b&B). rewrite (position_nth _ _ _ N A), (position_nth _ _ _ N B) in H. apply Nnat.Nat2N.inj in H. congruence.
Qed.
Lemma position_lt l i : NoDup l -> In i l -> (position l i < N.of_nat (length l))%N.
Proof. intros N I. apply In_nth_error in I as (a&A). rewrite (position_nth _ _ _ N A). assert (a < length l) by (apply nth_error_Some; congruence). lia. Qed.
Lemma each_map {A B} (f : A -> option B) (g : A -> B) l : (forall x, In x l -> f x = Some (g x)) -> each f l = Some (map g l).
Proof. induction l as [|x l IH]; intros H; cbn; [reflexivity|]. rewrite H by now left. rewrite IH by (intros; apply H; now right). reflexivity. Qed.
