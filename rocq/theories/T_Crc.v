(** C42: the accelerated checksum. *)
From Coq Require Import List Arith Bool NArith Lia.
From Verif Require Import M_Bytes M_Crc S_Crc P_Crc.
Import ListNotations.
Local Open Scope N_scope.

(** For every byte string and every address of the buffer, the eight-bytes-at-a-time checksum is CRC-32. *)
Theorem C42_calc_is_crc32 addr l : Forall (fun b => b < 256) l -> calc addr l = crc32 l.
Proof. apply calc_ok. Qed.
Print Assumptions C42_calc_is_crc32.

(** The incremental interface computes the same value however the data is cut into pieces. *)
Theorem C42_incremental pieces : Forall (fun l => Forall (fun b => b < 256) l) pieces ->
  stop (fold_left update pieces start) = crc32 (concat pieces).
Proof.
  intros F. unfold stop, crc32, start. change ALL1 with 0xFFFFFFFF. f_equal. generalize 0xFFFFFFFF. induction pieces as [|p r IH]; intros c; [reflexivity|].
  inversion F; subst. cbn [fold_left concat]. rewrite fold_left_app. rewrite IH by auto. f_equal. unfold update. now apply fold_upd.
Qed.
Print Assumptions C42_incremental.

(** The case-insensitive checksum is CRC-32 of the lower-cased bytes. *)
Theorem C42_lower l : Forall (fun b => b < 256) l -> calc_lower l = crc32 (map ascii_lower l).
Proof.
  intros F. unfold calc_lower, stop, crc32, update_lower, start. change ALL1 with 0xFFFFFFFF. f_equal. generalize 0xFFFFFFFF.
  induction l as [|b r IH]; intros c; [reflexivity|]. inversion F; subst. cbn [fold_left map].
  assert (E : lower_byte b = ascii_lower b).
  { unfold lower_byte, ascii_lower. destruct (N.leb_spec 65 b); cbn [andb]; auto. destruct (b <=? 90); lia. }
  assert (L : ascii_lower b < 256).
  { unfold ascii_lower. destruct (N.leb_spec 65 b); cbn [andb]; auto. destruct (N.leb_spec b 90); lia. }
  rewrite E, upd1_ok by auto. auto.
Qed.
Print Assumptions C42_lower.

(** The result is always a 32-bit number. *)
Theorem C42_range addr l : Forall (fun b => b < 256) l -> calc addr l < 4294967296.
Proof. intros F. rewrite calc_ok by auto. apply (lxor_lt 32); [apply fold_lt; auto; reflexivity|reflexivity]. Qed.
Print Assumptions C42_range.

(** Any damage confined to four consecutive bytes is detected. *)
Theorem C42_detects addr1 addr2 pre a b post :
  Forall (fun x => x < 256) (pre ++ a ++ b ++ post) -> List.length a = List.length b -> (List.length a <= 4)%nat -> a <> b ->
  calc addr1 (pre ++ a ++ post) <> calc addr2 (pre ++ b ++ post).
Proof.
  intros F L L4 N E. rewrite !Forall_app in F. destruct F as (Fp & Fa & Fb & Fq).
  rewrite !calc_ok in E by (rewrite !Forall_app; auto). unfold crc32 in E.
  rewrite !(N.lxor_comm _ 0xFFFFFFFF) in E. apply lxor_inj_l in E. rewrite !fold_left_app in E.
  pose proof (fold_lt pre 0xFFFFFFFF eq_refl Fp) as P. apply fold_inj in E; [|apply fold_lt; auto|apply fold_lt; auto|auto]. set (c := fold_left crc_byte pre 0xFFFFFFFF) in *. clearbody c. rewrite !fold_word in E by auto.
  rewrite <- L in E.
  assert (B : forall l, Forall (fun x => x < 256) l -> (List.length l <= 4)%nat -> le_value l < 2 ^ 32).
  { intros l Fl Ll. eapply N.lt_le_trans; [now apply le_value_lt|]. apply N.pow_le_mono_r; lia. }
  apply it_inj in E; [|apply lxor_lt; auto|apply lxor_lt; auto; apply B; auto; lia].
  apply lxor_inj_l in E. apply le_value_inj in E; auto.
Qed.
Print Assumptions C42_detects.

(** The check value of CRC-32: "123456789" gives CBF43926, at every alignment. *)
Example C42_case : forall addr, calc addr [49;50;51;52;53;54;55;56;57] = 0xCBF43926.
Proof. intros addr. rewrite C42_calc_is_crc32; [reflexivity|]. repeat constructor. Qed.
Example C42_detects_case : Forall (fun x => x < 256) ([1;2;3] ++ [4;5] ++ [4;6] ++ [7;8;9;10;11;12;13]) /\ [4;5] <> [4;6].
Proof. split; [repeat constructor|discriminate]. Qed.
