From Coq Require Import List Arith Bool NArith Lia.
From Verif Require Import M_Bytes M_Stream P_Stream M_Codec.
Import ListNotations.
Local Open Scope N_scope.

(** [r] reads back [x] from its encoding [e], whatever follows *)
Definition decodes {A} (r : reader A) (e : bytes) (x : A) : Prop :=
  forall s rest, views s (e ++ rest) -> exists s', r s = Some (Some x, s') /\ views s' rest.
(** [r] fails on every proper prefix of [e] *)
Definition cut_fails {A} (r : reader A) (e : bytes) : Prop :=
  forall s p q, e = p ++ q -> q <> [] -> views s p -> exists s', r s = Some (None, s').
Definition codec {A} (r : reader A) (e : bytes) (x : A) : Prop := decodes r e x /\ cut_fails r e.
(** [r] never makes a memory error *)
Definition safe {A} (r : reader A) : Prop := forall s, ks_ok s -> exists v s', r s = Some (v, s') /\ ks_ok s'.

Lemma split_app {A} (e1 e2 p q : list A) : e1 ++ e2 = p ++ q -> (exists q1, e1 = p ++ q1 /\ q1 <> []) \/ (exists p2, p = e1 ++ p2 /\ e2 = p2 ++ q).
Proof.
  revert p. induction e1 as [|a e1 IH]; intros p E.
  - right. exists p. auto.
  - destruct p as [|b p]; [left; exists (a :: e1); split; [reflexivity|discriminate]|]. cbn in E. injection E as -> E.
    destruct (IH p E) as [(q1&->&N)|(p2&->&->)]; [left; exists q1; auto|right; exists p2; auto].
Qed.

Lemma d_ret {A} (x : A) : decodes (ret x) [] x.
Proof. intros s rest V. exists s. auto. Qed.
Lemma c_ret {A} (x : A) : codec (ret x) [] x.
Proof. split; [apply d_ret|]. intros s p q E N. symmetry in E. apply app_eq_nil in E. tauto. Qed.
Lemma d_bind {A B} (r : reader A) (k : A -> reader B) e1 e2 x y : decodes r e1 x -> decodes (k x) e2 y -> decodes (bind r k) (e1 ++ e2) y.
Proof.
  intros D1 D2 s rest V. rewrite <- app_assoc in V. unfold bind. destruct (D1 s _ V) as (s1&E1&V1). rewrite E1.
  destruct (D2 s1 _ V1) as (s2&E2&V2). exists s2. auto.
Qed.
Lemma cf_bind {A B} (r : reader A) (k : A -> reader B) e1 e2 x : codec r e1 x -> cut_fails (k x) e2 -> cut_fails (bind r k) (e1 ++ e2).
Proof.
  intros (D1&C1) C2 s p q E N V. destruct (split_app _ _ _ _ E) as [(q1&E1&N1)|(p2&->&E2)].
  - destruct (C1 s p q1 E1 N1 V) as (s'&Es). exists s'. unfold bind. now rewrite Es.
  - unfold bind. destruct (D1 s _ V) as (s1&E1&V1). rewrite E1. apply (C2 s1 p2 q E2 N V1).
Qed.
Lemma c_bind {A B} (r : reader A) (k : A -> reader B) e1 e2 x y : codec r e1 x -> codec (k x) e2 y -> codec (bind r k) (e1 ++ e2) y.
Proof. intros C1 C2. split; [apply (d_bind r k e1 e2 x y (proj1 C1) (proj1 C2))|apply (cf_bind r k e1 e2 x C1 (proj2 C2))]. Qed.
(** last step without further reads *)
Lemma c_map {A B} (r : reader A) (k : A -> reader B) e x y : codec r e x -> codec (k x) [] y -> codec (bind r k) e y.
Proof. intros C1 C2. rewrite <- (app_nil_r e). now apply (c_bind r k e [] x y). Qed.
Lemma d_guard {B} b (k : unit -> reader B) e y : b = true -> decodes (k tt) e y -> decodes (bind (guard b) k) e y.
Proof. intros -> D. exact D. Qed.
Lemma c_guard {B} b (k : unit -> reader B) e y : b = true -> codec (k tt) e y -> codec (bind (guard b) k) e y.
Proof. intros -> D. exact D. Qed.

Lemma views_short s p n : views s p -> (List.length p < n)%nat -> exists s', ks_read s (N.of_nat n) = Some (p, s') /\ views s' [].
Proof.
  intros V L. destruct (views_read s p (N.of_nat n) V) as (s'&E&V'&_). rewrite Nat2N.id in *. rewrite firstn_all2 in E by lia. rewrite skipn_all2 in V' by lia. eauto.
Qed.
Lemma app_shorter (e p q : bytes) : e = p ++ q -> q <> [] -> (List.length p < List.length e)%nat.
Proof. intros -> N. rewrite app_length. destruct q; [congruence|cbn; lia]. Qed.
Lemma c_int n x : x < 256 ^ N.of_nat n -> codec (r_int n) (le_bytes n x) x.
Proof.
  intros B. split.
  - intros s rest V. destruct (rd_int_ok n s x rest V B) as (s'&E&V'&_). exists s'. unfold r_int. rewrite E. auto.
  - intros s p q E N V. pose proof (app_shorter _ _ _ E N) as L. rewrite le_bytes_len in L. destruct (views_short s p n V L) as (s'&E'&_).
    exists s'. unfold r_int, rd_int. rewrite E'. destruct (Nat.eqb_spec (List.length p) n); [lia|reflexivity].
Qed.
Lemma c_u8 x : x < 256 -> codec (r_int 1) (le_bytes 1 x) x. Proof. intros. now apply c_int. Qed.
Lemma c_u32 x : x < 4294967296 -> codec (r_int 4) (le_bytes 4 x) x. Proof. intros. now apply c_int. Qed.
Lemma c_u64 x : x < 18446744073709551616 -> codec (r_int 8) (le_bytes 8 x) x. Proof. intros. now apply c_int. Qed.
Lemma c_str t : blen t < 4294967296 -> codec r_str (wr_str t) t.
Proof.
  intros B. split.
  - intros s rest V. apply (rd_str_ok s t rest V B).
  - intros s p q E N V. unfold wr_str in E. unfold u32 in E. rewrite N.mod_small in E by auto. unfold r_str, rd_str.
    destruct (split_app _ _ _ _ E) as [(q1&E1&N1)|(p2&->&E2)].
    + pose proof (app_shorter _ _ _ E1 N1) as L. rewrite le_bytes_len in L. destruct (views_short s p 4 V L) as (s'&E'&_).
      unfold rd_int. rewrite E'. destruct (Nat.eqb_spec (List.length p) 4); [lia|eauto].
    + destruct (rd_u32_ok s _ _ V B) as (s1&E1&V1&_). rewrite E1. pose proof (app_shorter _ _ _ E2 N) as L. destruct (views_short s1 p2 (List.length t) V1 L) as (s'&E'&_).
      unfold blen at 1. rewrite E'. exists s'. replace (blen p2 =? blen t) with false; [reflexivity|]. symmetry. apply N.eqb_neq. unfold blen. lia.
Qed.
Lemma c_raw t : codec (r_raw (blen t)) t t.
Proof.
  split.
  - intros s rest V. destruct (views_read s _ (blen t) V) as (s'&E&V'&_). rewrite to_nat_blen in *. rewrite firstn_app, Nat.sub_diag, firstn_all in E. cbn [firstn] in E. rewrite app_nil_r in E.
    rewrite skipn_app, Nat.sub_diag, skipn_all in V'. exists s'. unfold r_raw. rewrite E, N.eqb_refl. split; [reflexivity|exact V'].
  - intros s p q E N V. pose proof (app_shorter _ _ _ E N) as L. destruct (views_short s p (List.length t) V L) as (s'&E'&_).
    unfold r_raw. unfold blen at 1. rewrite E'. exists s'. replace (blen p =? blen t) with false; [reflexivity|]. symmetry. apply N.eqb_neq. unfold blen. lia.
Qed.
Lemma c_rep {A} (r : reader A) (enc : A -> bytes) l : Forall (fun x => codec r (enc x) x) l -> codec (r_rep (List.length l) r) (flat_map enc l) l.
Proof.
  induction 1 as [|x l C F IH]; [apply c_ret|]. cbn [List.length r_rep flat_map]. apply (c_bind _ _ _ _ x _ C). apply (c_map _ _ _ l _ IH). apply c_ret.
Qed.
Lemma c_each {A B} (r : A -> reader B) (enc : B -> bytes) (la : list A) (lb : list B) :
  Forall2 (fun a b => codec (r a) (enc b) b) la lb -> codec (r_each la r) (flat_map enc lb) lb.
Proof.
  induction 1 as [|a b la lb C F IH]; [apply c_ret|]. cbn [r_each flat_map]. apply (c_bind _ _ _ _ b _ C). apply (c_map _ _ _ lb _ IH). apply c_ret.
Qed.

Lemma s_ret {A} (x : A) : safe (ret x). Proof. intros s H. exists (Some x), s. auto. Qed.
Lemma s_fail {A} : safe (@fail A). Proof. intros s H. exists None, s. auto. Qed.
Lemma s_guard b : safe (guard b). Proof. destruct b; [apply s_ret|apply s_fail]. Qed.
Lemma s_bind {A B} (r : reader A) (k : A -> reader B) : safe r -> (forall x, safe (k x)) -> safe (bind r k).
Proof. intros S1 S2 s H. unfold bind. destruct (S1 s H) as ([x|]&s'&E&H'); rewrite E; [apply S2; auto|eauto]. Qed.
Lemma s_int n : safe (r_int n).
Proof. intros s H. unfold r_int. destruct (rd_int_safe n s H) as ([v|b]&s'&E&H'&_); rewrite E; eauto. Qed.
Lemma s_int_ignored n : safe (r_int_ignored n).
Proof. intros s H. unfold r_int_ignored. destruct (rd_int_safe n s H) as ([v|b]&s'&E&H'&_); rewrite E; eauto. Qed.
Lemma s_str : safe r_str.
Proof. intros s H. unfold r_str. destruct (rd_str_safe s H) as (v&s'&E&H'&_); eauto. Qed.
Lemma s_raw n : safe (r_raw n).
Proof. intros s H. unfold r_raw. destruct (ks_read_safe s n H) as (b&s'&E&H'&_); rewrite E; eauto. Qed.
Lemma s_rep {A} n (r : reader A) : safe r -> safe (r_rep n r).
Proof. intros S. induction n as [|n IH]; cbn [r_rep]; [apply s_ret|]. apply s_bind; auto. intros x. apply s_bind; auto. intros l. apply s_ret. Qed.
Lemma s_each {A B} (l : list A) (r : A -> reader B) : (forall a, safe (r a)) -> safe (r_each l r).
Proof. intros S. induction l as [|a l IH]; cbn [r_each]; [apply s_ret|]. apply s_bind; auto. intros x. apply s_bind; auto. intros xs. apply s_ret. Qed.
