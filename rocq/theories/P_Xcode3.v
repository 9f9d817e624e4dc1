(** Proofs about XCode projects: what is written. *)
From Coq Require Import String Ascii List Arith Bool NArith Lia Permutation.
From Verif Require Import M_Path M_Names M_Array M_Sort M_Dir M_Drv M_Xcode S_Xcode S_Sort P_Sort P_Drv P_Dir2 P_Xcode P_Xcode2.
Import ListNotations.
Local Open Scope list_scope.
Local Notation "'length'" := List.length.

Section W.
Context (p : plat) (rel : str -> str) (ps fs : list str) (G : good (native p) rel ps fs).
Notation c := (native p).
Notation s := (build c rel ps fs).
Notation file_at i := (nth i fs []).
Notation path_at j := (nth j ps []).

Definition robj (fo : list nat) (i : nat) : str * object :=
  (ref_id (position fo i), FileRef (process_string (short_name (rel (file_at i)))) (process_string (file_at i))).
Definition gid (go : list nat) (j : nat) : str := group_id (position go j).
Definition gobj (fo go : list nat) (A B : nat -> list nat) (j : nat) : str * object :=
  (gid go j, Group (group_name p (path_at j)) (map (fun i => ref_id (position fo i)) (A j) ++ map (gid go) (B j))).
Definition targets_of (fo : list nat) : list (str * object) :=
  [(legacy_id 0, LegacyTarget (list_id 1) [phase_id 0]); (native_id 0, NativeTarget (list_id 2) [phase_id 0]);
   (project_id 0, Project (list_id 0) (group_id 0) [legacy_id 0; native_id 0]);
   (phase_id 0, Sources (map (fun i => build_id (position fo i)) fo))].
Definition configs_of (c0 : str) (configs : list str) : list (str * object) :=
  map write_config (numbered 0 configs) ++ map write_config (numbered 100 configs) ++ map write_config (numbered 200 configs)
  ++ map (fun k => (list_id (fst k), ConfigList (map (fun c => config_id (fst c)) (numbered (snd k) configs)) c0)) [(0, 0); (1, 100); (2, 200)]%N.
Definition tail_of (fo : list nat) (c0 : str) (configs : list str) : list (str * object) := targets_of fo ++ configs_of c0 configs.

Record shape (fo go : list nat) (A B : nat -> list nat) : Prop := {
  s_fo : Permutation (seq 0 (length fs)) fo;
  s_go : Permutation (seq 0 (length ps)) go;
  s_root : nth_error go 0 = Some 0;
  s_A : forall j, j < length ps -> NoDup (A j);
  s_B : forall j, j < length ps -> NoDup (B j);
  s_inA : forall i j, j < length ps -> In i (A j) <-> i < length fs /\ parent c (rel (file_at i)) = path_at j;
  s_inB : forall i j, j < length ps -> In i (B j) <-> 1 <= i < length ps /\ parent c (path_at i) = path_at j }.

Lemma get_file i : i < length fs -> get (files s) i = Some (the_file c rel ps (file_at i)).
Proof. intros L. unfold get. cbn [files build]. rewrite nth_error_map, (nth_error_nth' fs [] L). reflexivity. Qed.
Lemma get_folder j : j < length ps -> get (folders s) j = Some (made c rel ps fs (path_at j)).
Proof. intros L. unfold get. cbn [folders build]. rewrite nth_error_map, (nth_error_nth' ps [] L). reflexivity. Qed.
Definition sorted_files (l : list nat) : list nat := match sort_files s l with Some x => x | None => [] end.
Definition sorted_folders (l : list nat) : list nat := match sort_folders s l with Some x => x | None => [] end.
Lemma sorted_files_spec l : sort_files s l = Some (sorted_files l) /\ Permutation l (sorted_files l).
Proof. unfold sorted_files, sort_files. destruct (P_Sort.shell_sort_spec (fun i j => less (file_name s i) (file_name s j)) l) as (b&E&P&_). rewrite E. auto. Qed.
Lemma weak_by {X} (f : X -> str) : strict_weak (fun a b => less (f a) (f b)).
Proof. destruct less_weak as [A B C]. split; [intros x; apply A|intros x y z; apply B|intros x y z; apply C]. Qed.
Lemma sorted_folders_spec l : sort_folders s l = Some (sorted_folders l) /\ Permutation l (sorted_folders l) /\ S_Sort.ordered (fun i j => less (folder_path s i) (folder_path s j)) (sorted_folders l).
Proof.
  unfold sorted_folders, sort_folders. destruct (P_Sort.shell_sort_spec (fun i j => less (folder_path s i) (folder_path s j)) l) as (b&E&P&O). rewrite E. split; [reflexivity|]. split; [exact P|].
  apply O, (weak_by (folder_path s)).
Qed.
Lemma root_first : nth_error (sorted_folders (seq 0 (length ps))) 0 = Some 0.
Proof.
  destruct (sorted_folders_spec (seq 0 (length ps))) as (_&P&O). set (l := sorted_folders _) in *. destruct (good_len _ _ _ _ G) as (tl&E).
  assert (I : In 0 l) by (apply (Permutation_in _ P); apply in_seq; rewrite E; cbn; lia). apply In_nth_error in I as (k&K). destruct k as [|k]; [exact K|].
  destruct (nth_error l 0) as [x|] eqn:X.
  - specialize (O 0 (S k) x 0 (Nat.lt_0_succ k) X K). assert (LX : In x (seq 0 (length ps))) by (apply (Permutation_in _ (Permutation_sym P)), (nth_error_In _ _ X)). apply in_seq in LX.
    unfold folder_path in O. rewrite get_folder in O by (rewrite E; cbn; lia). rewrite get_folder in O by lia. cbn [fpath made] in O.
    assert (Q : path_at x = []) by (replace (path_at 0) with (@nil ascii) in O by (now rewrite E); destruct (path_at x); [reflexivity|discriminate O]).
    f_equal. assert (D : forall i j, i < length ps -> j < length ps -> path_at i = path_at j -> i = j) by (apply NoDup_nth, (g_nodup _ _ _ _ G)).
    apply D; [lia|rewrite E; cbn; lia|]. rewrite Q, E. reflexivity.
  - apply nth_error_None in X. assert (S k < length l) by (apply nth_error_Some; congruence). lia.
Qed.
Lemma write_spec c0 cs : exists fo go A B, shape fo go A B /\
  write p s (c0 :: cs) = Some (map (write_build fo) fo ++ map (robj fo) fo ++ map (gobj fo go A B) go ++ tail_of fo c0 (c0 :: cs)).
Proof.
  unfold write. rewrite build_len. replace (length (files s)) with (length fs) by (symmetry; apply map_length).
  destruct (sorted_files_spec (seq 0 (length fs))) as (E1&P1). destruct (sorted_folders_spec (seq 0 (length ps))) as (E2&P2&_). pose proof root_first as R.
  rewrite E1, E2. set (fo := sorted_files _) in *. set (go := sorted_folders _) in *.
  exists fo, go, (fun j => sorted_files (ffiles (made c rel ps fs (path_at j)))), (fun j => sorted_folders (fsubs (made c rel ps fs (path_at j)))).
  assert (ND1 : NoDup (seq 0 (length fs))) by apply seq_NoDup.
  split; [split; auto|].
  - intros j _. apply (Permutation_NoDup (proj2 (sorted_files_spec _))). apply NoDup_filter, seq_NoDup.
  - intros j _. apply (Permutation_NoDup (proj1 (proj2 (sorted_folders_spec _)))). apply NoDup_filter, seq_NoDup.
  - intros i j L. etransitivity; [split; apply Permutation_in; [apply Permutation_sym|]; apply sorted_files_spec|]. cbn [ffiles made]. rewrite filter_In, in_seq, teq_eq. split; intros [H1 H2]; (split; [lia|exact H2]).
  - intros i j L. etransitivity; [split; apply Permutation_in; [apply Permutation_sym|]; apply sorted_folders_spec|]. cbn [fsubs made]. rewrite filter_In, in_seq, teq_eq. split; intros [H1 H2]; (split; [lia|exact H2]).
  - rewrite (each_map (write_ref s fo) (robj fo)).
    + rewrite (each_map (write_group p s fo go) (gobj fo go (fun j => sorted_files (ffiles (made c rel ps fs (path_at j)))) (fun j => sorted_folders (fsubs (made c rel ps fs (path_at j)))))).
      * reflexivity.
      * intros j I. apply (Permutation_in _ (Permutation_sym P2)) in I. apply in_seq in I. unfold write_group. rewrite get_folder by lia.
        rewrite (proj1 (sorted_files_spec _)), (proj1 (sorted_folders_spec _)). reflexivity.
    + intros i I. apply (Permutation_in _ (Permutation_sym P1)) in I. apply in_seq in I. unfold write_ref. rewrite get_file by lia. reflexivity.
Qed.

(** *** The tree *)
Section T.
Context (fo go : list nat) (A B : nat -> list nat) (SH : shape fo go A B) (c0 : str) (cs : list str).
Definition prj := map (write_build fo) fo ++ map (robj fo) fo ++ map (gobj fo go A B) go ++ tail_of fo c0 (c0 :: cs).

Lemma fo_nodup : NoDup fo. Proof. apply (Permutation_NoDup (s_fo _ _ _ _ SH)), seq_NoDup. Qed.
Lemma go_nodup : NoDup go. Proof. apply (Permutation_NoDup (s_go _ _ _ _ SH)), seq_NoDup. Qed.
Lemma in_fo i : In i fo <-> i < length fs.
Proof. split; intros H; [apply (Permutation_in _ (Permutation_sym (s_fo _ _ _ _ SH))), in_seq in H; lia|]. apply (Permutation_in _ (s_fo _ _ _ _ SH)), in_seq. lia. Qed.
Lemma in_go i : In i go <-> i < length ps.
Proof. split; intros H; [apply (Permutation_in _ (Permutation_sym (s_go _ _ _ _ SH))), in_seq in H; lia|]. apply (Permutation_in _ (s_go _ _ _ _ SH)), in_seq. lia. Qed.
Lemma go_len : length go = length ps. Proof. rewrite <- (Permutation_length (s_go _ _ _ _ SH)). apply seq_length. Qed.
Lemma fo_len : length fo = length fs. Proof. rewrite <- (Permutation_length (s_fo _ _ _ _ SH)). apply seq_length. Qed.
Lemma gid_root : gid go 0 = group_id 0.
Proof. unfold gid. now rewrite (position_nth _ _ _ go_nodup (s_root _ _ _ _ SH)). Qed.

Lemma path_inj i j : i < length ps -> j < length ps -> path_at i = path_at j -> i = j.
Proof. apply NoDup_nth, (g_nodup _ _ _ _ G). Qed.
Lemma root_at : path_at 0 = [] /\ 0 < length ps.
Proof. destruct (good_len _ _ _ _ G) as (tl&E). rewrite E. cbn. split; [reflexivity|lia]. Qed.
Lemma nodup_flat {X Y} (f : X -> list Y) l : NoDup l -> (forall x, In x l -> NoDup (f x)) -> (forall x y z, In x l -> In y l -> In z (f x) -> In z (f y) -> x = y) -> NoDup (flat_map f l).
Proof.
  induction l as [|x l IH]; intros N H D; cbn; [constructor|]. inversion N as [|? ? N1 N2]; subst.
  assert (R : NoDup (flat_map f l)) by (apply IH; [exact N2|intros; apply H; now right|intros a b z Ia Ib; apply D; now right]).
  assert (H0 : NoDup (f x)) by (apply H; now left). assert (DD : forall z, In z (f x) -> ~ In z (flat_map f l)).
  { intros z Iz J. apply in_flat_map in J as (y&Iy&J). apply N1. rewrite (D x y z); auto; [now left|now right]. }
  clear - R H0 DD. induction (f x) as [|z m IHm]; cbn; [exact R|]. inversion H0; subst. constructor.
  - rewrite in_app_iff. intros [K|K]; [contradiction|]. apply (DD z); [now left|exact K].
  - apply IHm; [assumption|]. intros w K. apply DD. now right.
Qed.
Lemma all_files : Permutation (flat_map A go) fo.
Proof.
  apply NoDup_Permutation; [|exact fo_nodup|].
  - apply nodup_flat; [exact go_nodup|intros j J; apply in_go in J; now apply (s_A _ _ _ _ SH)|]. intros i j z I J HA HB. apply in_go in I, J.
    apply (s_inA _ _ _ _ SH) in HA as [_ HA]; [|exact I]. apply (s_inA _ _ _ _ SH) in HB as [_ HB]; [|exact J]. apply path_inj; congruence.
  - intros i. rewrite in_flat_map, in_fo. split.
    + intros (j&J&H). apply in_go in J. apply (s_inA _ _ _ _ SH) in H; tauto.
    + intros L. destruct (pos_in _ _ (g_files _ _ _ _ G (file_at i) (nth_In fs [] L))) as [_ E]. set (j := pos _ ps) in E. clearbody j. exists j. assert (J : j < length ps) by (apply nth_error_Some; congruence).
      split; [now apply in_go|]. apply (s_inA _ _ _ _ SH); [exact J|]. split; [exact L|]. symmetry. now apply nth_error_nth.
Qed.
Lemma all_folders : Permutation (0 :: flat_map B go) go.
Proof.
  apply NoDup_Permutation; [|exact go_nodup|].
  - constructor.
    + rewrite in_flat_map. intros (j&J&H). apply in_go in J. apply (s_inB _ _ _ _ SH) in H; [lia|exact J].
    + apply nodup_flat; [exact go_nodup|intros j J; apply in_go in J; now apply (s_B _ _ _ _ SH)|]. intros i j z I J HA HB. apply in_go in I, J.
      apply (s_inB _ _ _ _ SH) in HA as [_ HA]; [|exact I]. apply (s_inB _ _ _ _ SH) in HB as [_ HB]; [|exact J]. apply path_inj; congruence.
  - intros i. cbn [In]. rewrite in_flat_map, in_go. pose proof root_at as [_ R]. split.
    + intros [<-|(j&J&H)]; [exact R|]. apply in_go in J. apply (s_inB _ _ _ _ SH) in H; [lia|exact J].
    + intros L. destruct i as [|i]; [now left|right]. destruct (pos_in _ _ (g_up _ _ _ _ G (path_at (S i)) (nth_In ps [] L))) as [_ E]. set (j := pos _ ps) in E. clearbody j. exists j. assert (J : j < length ps) by (apply nth_error_Some; congruence).
      split; [now apply in_go|]. apply (s_inB _ _ _ _ SH); [exact J|]. split; [lia|]. symmetry. now apply nth_error_nth.
Qed.
Lemma filter_const {X} (f : X -> bool) (b : bool) l : (forall x, In x l -> f x = b) -> filter f l = if b then l else [].
Proof. induction l as [|x l IH]; intros H; cbn; [now destruct b|]. rewrite (H x) by now left. rewrite IH by (intros; apply H; now right). now destruct b. Qed.
Lemma in_tail x : In x (tail_of fo c0 (c0 :: cs)) -> is_group x = false /\ is_ref x = false /\ is_build x = false /\ match snd x with Group _ _ | FileRef _ _ | BuildFile _ => False | _ => True end.
Proof.
  unfold tail_of, targets_of, configs_of. rewrite !in_app_iff. intros [H|[H|[H|[H|H]]]].
  1: cbn in H; destruct H as [<-|[<-|[<-|[<-|[]]]]]; cbn; auto.
  all: apply in_map_iff in H as (y&<-&_); cbn; auto.
Qed.
Lemma kinds : filter is_group prj = map (gobj fo go A B) go /\ filter is_ref prj = map (robj fo) fo /\ filter is_build prj = map (write_build fo) fo.
Proof.
  unfold prj. rewrite !filter_app.
  assert (M : forall (t : str * object -> bool) {X} (f : X -> str * object) b l, (forall i, t (f i) = b) -> filter t (map f l) = if b then map f l else []).
  { intros t X f b l H. apply filter_const. intros x I. apply in_map_iff in I as (i&<-&_). apply H. }
  rewrite (M is_group _ (write_build fo) false), (M is_group _ (robj fo) false), (M is_group _ (gobj fo go A B) true), (M is_ref _ (write_build fo) false), (M is_ref _ (robj fo) true), (M is_ref _ (gobj fo go A B) false), (M is_build _ (write_build fo) true), (M is_build _ (robj fo) false), (M is_build _ (gobj fo go A B) false) by reflexivity.
  rewrite (filter_const is_group false (tail_of _ _ _)), (filter_const is_ref false (tail_of _ _ _)), (filter_const is_build false (tail_of _ _ _)) by (intros x I; apply in_tail in I; tauto).
  cbn [app]. rewrite !app_nil_r. auto.
Qed.
Lemma children_app l m : children (l ++ m) = children l ++ children m. Proof. apply flat_map_app. Qed.
Lemma children_none l : (forall x, In x l -> is_group x = false) -> children l = [].
Proof. induction l as [|x l IH]; intros H; cbn; [reflexivity|]. fold (children l). rewrite IH by (intros; apply H; now right). pose proof (H x (or_introl eq_refl)) as E. destruct x as [k []]; cbn in *; try reflexivity. discriminate. Qed.
Lemma flat_split {X Y} (f g : X -> list Y) l : Permutation (flat_map (fun x => f x ++ g x) l) (flat_map f l ++ flat_map g l).
Proof.
  induction l as [|x l IH]; cbn; [constructor|]. rewrite IH. rewrite <- !app_assoc. apply Permutation_app_head. rewrite !app_assoc. apply Permutation_app_tail. apply Permutation_app_comm.
Qed.
Lemma flat_map_map {X Y Z} (h : Y -> Z) (f : X -> list Y) l : flat_map (fun x => map h (f x)) l = map h (flat_map f l).
Proof. induction l as [|x l IH]; cbn; [reflexivity|]. now rewrite IH, map_app. Qed.
Lemma tree_once : Permutation (group_id 0 :: children prj) (ids (filter is_group prj) ++ ids (filter is_ref prj)).
Proof.
  destruct kinds as (K1&K2&_). rewrite K1, K2. unfold ids. rewrite !map_map. cbn [fst gobj robj].
  assert (C : children prj = flat_map (fun j => map (fun i => ref_id (position fo i)) (A j) ++ map (gid go) (B j)) go).
  { unfold prj. rewrite !children_app. rewrite (children_none (map (write_build fo) fo)) by (intros x I; apply in_map_iff in I as (i&<-&_); reflexivity).
    rewrite (children_none (map (robj fo) fo)) by (intros x I; apply in_map_iff in I as (i&<-&_); reflexivity). rewrite (children_none (tail_of _ _ _)) by (intros x I; apply in_tail in I; tauto).
    cbn [app]. rewrite app_nil_r. unfold children. rewrite flat_map_concat_map, map_map, <- flat_map_concat_map. reflexivity. }
  rewrite C. rewrite flat_split, !flat_map_map. rewrite <- gid_root.
  transitivity (map (fun i => ref_id (position fo i)) (flat_map A go) ++ map (gid go) (0 :: flat_map B go)).
  - cbn [map]. apply Permutation_middle.
  - rewrite Permutation_app_comm. apply Permutation_app; apply Permutation_map; [exact all_folders|exact all_files].
Qed.

(** *** Walks *)
Context (FIT : (N.of_nat (length prj) < 4294967296)%N).
Lemma fit_go : (N.of_nat (length go) < 4294967296)%N.
Proof. unfold prj in FIT. rewrite !app_length, !map_length in FIT. lia. Qed.
Lemma gid_inj i j : i < length ps -> j < length ps -> gid go i = gid go j -> i = j.
Proof.
  intros I J H. apply in_go in I, J. pose proof (position_lt _ _ go_nodup I). pose proof (position_lt _ _ go_nodup J). pose proof fit_go. apply group_inj in H; [|lia|lia].
  now apply (position_inj _ _ _ go_nodup I J).
Qed.
Lemma in_group g nm ch : In (g, Group nm ch) prj -> exists j, j < length ps /\ g = gid go j /\ nm = group_name p (path_at j) /\ ch = map (fun i => ref_id (position fo i)) (A j) ++ map (gid go) (B j).
Proof.
  unfold prj. rewrite !in_app_iff. intros [H|[H|[H|H]]].
  - apply in_map_iff in H as (i&E&_). discriminate.
  - apply in_map_iff in H as (i&E&_). discriminate.
  - apply in_map_iff in H as (j&E&I). exists j. split; [now apply in_go|]. pose proof (f_equal fst E) as Ea. pose proof (f_equal snd E) as Eb. cbn [fst snd gobj] in Ea, Eb. injection Eb as E1 E2. auto.
  - apply in_tail in H as (_&_&_&[]).
Qed.
Lemma group_in j : j < length ps -> In (gobj fo go A B j) prj.
Proof. intros L. unfold prj. rewrite !in_app_iff. right. right. left. apply in_map, in_go, L. Qed.
Lemma in_ref r n t : In (r, FileRef n t) prj -> exists i, i < length fs /\ r = ref_id (position fo i) /\ n = process_string (short_name (rel (file_at i))) /\ t = process_string (file_at i).
Proof.
  unfold prj. rewrite !in_app_iff. intros [H|[H|[H|H]]].
  - apply in_map_iff in H as (i&E&_). discriminate.
  - apply in_map_iff in H as (i&E&I). exists i. split; [now apply in_fo|]. pose proof (f_equal fst E) as Ea. pose proof (f_equal snd E) as Eb. cbn [fst snd robj] in Ea, Eb. injection Eb as E1 E2. auto.
  - apply in_map_iff in H as (i&E&_). discriminate.
  - apply in_tail in H as (_&_&_&[]).
Qed.
Lemma ref_in i : i < length fs -> In (robj fo i) prj.
Proof. intros L. unfold prj. rewrite !in_app_iff. right. left. apply in_map, in_fo, L. Qed.
Lemma denotes_one t a b : denotes t a -> denotes t b -> a = b.
Proof. intros H1 H2. specialize (H1 []). specialize (H2 []). congruence. Qed.

Context (PLAIN : forall q n, In q ps -> group_name p q = Some n -> denotes n n).
Lemma reach_all : forall k j, j < length ps -> length (path_at j) <= k -> reach prj (group_id 0) (names c (path_at j)) (gid go j).
Proof.
  pose proof root_at as [R0 R1]. induction k as [|k IH]; intros j L LE.
  - assert (E : path_at j = []) by (destruct (path_at j); [reflexivity|cbn in LE; lia]). assert (j = 0) by (apply path_inj; congruence). subst j. rewrite gid_root, E. constructor.
  - destruct (list_eq_dec ascii_dec (path_at j) []) as [E|N].
    + assert (j = 0) by (apply path_inj; congruence). subst j. rewrite gid_root, E. constructor.
    + destruct (names_parent p _ N) as (n&GN&E). rewrite E. pose proof (nth_In ps [] L) as I. destruct (pos_in _ _ (g_up _ _ _ _ G _ I)) as [_ X]. set (j' := pos _ ps) in X. clearbody j'.
      assert (L' : j' < length ps) by (apply nth_error_Some; congruence). pose proof (nth_error_nth _ _ [] X) as Q. pose proof (parent_short c _ N) as LS.
      assert (J1 : j <> 0) by (intros ->; congruence).
      eapply (reach_below prj (group_id 0) _ (gid go j') _ _ (gid go j) n n).
      * rewrite <- Q. apply IH; [exact L'|]. etransitivity; [exact (Nat.eq_le_incl _ _ (f_equal (@List.length ascii) Q))|lia].
      * exact (group_in j' L').
      * apply in_app_iff. right. apply in_map. apply (s_inB _ _ _ _ SH); [exact L'|]. split; [lia|]. exact (eq_sym Q).
      * pose proof (group_in j L) as H. unfold gobj in H. rewrite GN in H. exact H.
      * now apply (PLAIN (path_at j)).
Qed.
Lemma ids_differ n m : ref_id n <> group_id m. Proof. discriminate. Qed.
Lemma reach_only ns g : reach prj (group_id 0) ns g -> exists j, j < length ps /\ g = gid go j /\ ns = names c (path_at j).
Proof.
  pose proof root_at as [R0 R1]. induction 1 as [|ns g nm ch x t n nch H IH HG HC HX D].
  - exists 0. rewrite gid_root, R0. auto.
  - destruct IH as (j&L&->&->). apply in_group in HG as (j1&L1&Eg&->&->). apply gid_inj in Eg; [|exact L|exact L1]. subst j1.
    apply in_group in HX as (j2&L2&->&ET&->). apply in_app_iff in HC as [HC|HC].
    + apply in_map_iff in HC as (i&E&_). now apply ids_differ in E.
    + apply in_map_iff in HC as (j3&E&I3). apply (s_inB _ _ _ _ SH) in I3 as [L3 PA]; [|exact L]. apply gid_inj in E; [|lia|exact L2]. subst j3.
      exists j2. split; [exact L2|]. split; [reflexivity|]. assert (N : path_at j2 <> []) by (intros Z; rewrite Z in ET; discriminate ET).
      destruct (names_parent p _ N) as (n'&GN&E). rewrite E, PA. f_equal. f_equal. rewrite GN in ET. injection ET as ->.
      apply (denotes_one n' n n' D). apply (PLAIN (path_at j2)); [apply nth_In; exact L2|exact GN].
Qed.
Context (TEXT : forall v, denotes (process_string v) v).
Lemma listed_all i : i < length fs -> listed prj (group_id 0) (folders_of c (rel (file_at i))) (short_name (rel (file_at i))) (file_at i).
Proof.
  intros L. destruct (pos_in _ _ (g_files _ _ _ _ G _ (nth_In fs [] L))) as [_ X]. set (j := pos _ ps) in X. clearbody j. assert (J : j < length ps) by (apply nth_error_Some; congruence).
  pose proof (nth_error_nth _ _ [] X) as Q. rewrite folders_parent, <- Q. exists (gid go j). do 2 eexists. exists (ref_id (position fo i)). do 2 eexists.
  split; [now apply (reach_all (length (path_at j)))|]. split; [exact (group_in j J)|]. split; [|split; [exact (ref_in i L)|split; apply TEXT]].
  apply in_app_iff. left. apply (in_map (fun i => ref_id (position fo i))). apply (s_inA _ _ _ _ SH); [exact J|]. auto.
Qed.
Lemma listed_only ns name path : listed prj (group_id 0) ns name path -> In path fs /\ ns = folders_of c (rel path) /\ name = short_name (rel path).
Proof.
  intros (g&nm&ch&r&tn&tp&R&HG&HC&HR&D1&D2). apply reach_only in R as (j&L&->&->). apply in_group in HG as (j1&L1&Eg&->&->). apply gid_inj in Eg; [|exact L|exact L1]. subst j1.
  apply in_ref in HR as (i&LI&->&->&->). apply denotes_one with (1 := TEXT _) in D1. apply denotes_one with (1 := TEXT _) in D2. subst name path.
  apply in_app_iff in HC as [HC|HC]; apply in_map_iff in HC as (k&E&I).
  - apply (s_inA _ _ _ _ SH) in I as [LK PA]; [|exact L]. apply ref_inj in E. apply position_inj in E; [|exact fo_nodup|now apply in_fo|now apply in_fo]. subst k.
    split; [now apply nth_In|]. rewrite folders_parent, PA. auto.
  - symmetry in E. now apply ids_differ in E.
Qed.
End T.
End W.
