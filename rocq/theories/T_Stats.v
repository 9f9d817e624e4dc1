(** C100: the numbers that a build reports. *)
From Coq Require Import List Arith Bool NArith Lia Permutation.
From Verif Require Import M_Sort S_Sort P_Sort M_Stats S_Stats P_Stats.
Import ListNotations.

Section C100.
Context (skip : bool) (g : graph) (root : nat) (S0 : sound g) (R0 : root < length g).

Lemma gathered_ok : exists ns ds t l, gathered skip g root = Some (t, l, totals t) /\ of_build skip g root ns ds /\ t = counted g ns start /\
  Permutation (by_time t) l /\ S_Sort.ordered (dearer g) l.
Proof.
  destruct (gather_all skip g S0 root R0) as (ns&ds&seen&E&B). set (t := counted g ns start) in *.
  destruct (shell_sort_spec (dearer g) (by_time t)) as (l&El&P&O). exists ns, ds, t, l. unfold gathered. rewrite E, El.
  repeat split; auto; try apply B. exact (O (dearer_weak g)).
Qed.

(** The numbers are always found, whatever the shape of the graph, and those of a type are about the nodes of that type that the build needs, each counted once. *)
Theorem C100_counts : exists t l tot ns ds, gathered skip g root = Some (t, l, tot) /\ of_build skip g root ns ds /\
  forall k, k <> PROXY -> let is d := Nat.eqb (type d) k in let s := per_type t k in
    processed s = many is ds /\ s_built s = many (fun d => is d && built (flag d)) ds /\ s_failed s = many (fun d => is d && failed (flag d)) ds /\
    hits s = many (fun d => is d && hit (flag d)) ds /\ misses s = many (fun d => is d && miss (flag d)) ds /\ stores s = many (fun d => is d && store (flag d)) ds /\
    light_hits s = many (fun d => is d && (light (flag d) && hit (flag d))) ds /\
    light_stores s = many (fun d => is d && (light (flag d) && negb (hit (flag d)) && store (flag d))) ds /\
    light_misses s = many (fun d => is d && (light (flag d) && negb (hit (flag d)) && negb (store (flag d)))) ds /\
    cpu s = sum time is ds /\ cache_time s = sum caching (fun d => is d && store (flag d)) ds.
Proof.
  destruct gathered_ok as (ns&ds&t&l&E&B&T&_). exists t, l, (totals t), ns, ds. split; [exact E|]. split; [exact B|]. intros k K is s.
  destruct (counted_ok g ns ds (proj2 (proj2 B))) as (C&_). rewrite <- T in C. unfold s. rewrite C.
  assert (X : forall d, of_type k d = is d).
  { intros d. unfold of_type, is. destruct (Nat.eqb_spec (type d) k) as [Q|Q]; [|now rewrite andb_false_r]. rewrite Q. now destruct (Nat.eqb_spec k PROXY). }
  unfold stats_of, many, sum. cbn [processed s_built hits misses stores light_hits light_misses light_stores cpu s_failed cache_time].
  repeat split; try (f_equal; f_equal; f_equal; apply filter_ext; intros d; now rewrite ?X); try (f_equal; f_equal; f_equal; f_equal; apply filter_ext; intros d; now rewrite ?X).
Qed.

(** Times: of all nodes but proxies, each once; remote time is that of the nodes built by others. *)
Theorem C100_times : exists t l tot ns ds, gathered skip g root = Some (t, l, tot) /\ of_build skip g root ns ds /\
  let is d := negb (Nat.eqb (type d) PROXY) in local t = sum time is ds /\ far t = sum last_time (fun d => is d && remote (flag d)) ds.
Proof.
  destruct (gathered_ok) as (ns&ds&t&l&E&B&T&_). exists t, l, (totals t), ns, ds. split; [exact E|]. split; [exact B|].
  destruct (counted_ok g ns ds (proj2 (proj2 B))) as (_&C&D&_). rewrite <- T in C, D. now split.
Qed.

(** The nodes by time: what the build needs and took time, but for proxies and files, each once, the dearest first. *)
Theorem C100_dearest : exists t l tot, gathered skip g root = Some (t, l, tot) /\ NoDup l /\
  (forall n, In n l <-> needs skip g root n /\ exists d, nth_error g n = Some d /\ (0 < time d)%N /\ type d <> PROXY /\ type d <> FILE) /\
  (forall i j a b, i < j -> nth_error l i = Some a -> nth_error l j = Some b -> (time_of g b <= time_of g a)%N).
Proof.
  destruct (gathered_ok) as (ns&ds&t&l&E&(Nd&Nn&W)&T&P&O). exists t, l, (totals t). split; [exact E|].
  destruct (counted_ok g ns ds W) as (_&_&_&C). rewrite <- T in C. rewrite C in P.
  assert (Ln : length ns = length ds) by (apply (f_equal (@length _)) in W; now rewrite !map_length in W).
  assert (Cn : forall n d, In (n, d) (combine ns ds) -> In n ns /\ nth_error g n = Some d).
  { clear - W. revert ds W. induction ns as [|x r IH]; intros [|y q] W n d I; try easy. cbn in W. injection W as W1 W2. destruct I as [I|I].
    - injection I as -> ->. split; [now left|exact W1].
    - destruct (IH q W2 n d I). split; [now right|assumption]. }
  assert (Cx : forall n, In n ns -> exists d, In (n, d) (combine ns ds)).
  { clear - Ln. revert ds Ln. induction ns as [|x r IH]; intros [|y q] Ln n I; try easy. destruct I as [->|I]; [exists y; now left|].
    destruct (IH q) with (n := n) as (d&D); [now injection Ln|exact I|]. exists d. now right. }
  split; [|split].
  - apply (Permutation_NoDup P). unfold picked. clear - Nd. revert ds. induction ns as [|x r IH]; intros ds; [constructor|].
    destruct ds as [|y q]; [constructor|]. inversion Nd as [|? ? N1 N2]; subst. cbn [combine filter snd]. destruct (timed y); cbn [map fst]; [|auto]. constructor; [|auto].
    intros I. apply in_map_iff in I as ((a&b)&<-&I). apply filter_In in I as [I _]. apply N1. now apply in_combine_l in I.
  - intros n. split.
    + intros I. apply (Permutation_in _ (Permutation_sym P)) in I. unfold picked in I. apply in_map_iff in I as ((a&d)&<-&I). apply filter_In in I as [I Ti]. cbn [fst snd] in *.
      apply Cn in I as [I Ed]. split; [now apply Nn|]. exists d. split; [exact Ed|]. unfold timed, real in Ti. apply andb_true_iff in Ti as [Ti T3]. apply andb_true_iff in Ti as [T1 T2].
      apply negb_true_iff, Nat.eqb_neq in T1, T3. apply N.ltb_lt in T2. auto.
    + intros (I&d&Ed&T2&T1&T3). apply (Permutation_in _ P). apply Nn in I. destruct (Cx n I) as (d'&D). pose proof (Cn n d' D) as [_ Q]. rewrite Ed in Q. injection Q as <-.
      unfold picked. apply in_map_iff. exists (n, d). split; [reflexivity|]. apply filter_In. split; [exact D|]. cbn [snd]. unfold timed, real.
      apply Nat.eqb_neq in T1, T3. apply N.ltb_lt in T2. now rewrite T1, T2, T3.
  - intros i j a b Ij A B. specialize (O i j a b Ij A B). unfold dearer in O. apply N.ltb_ge in O. exact O.
Qed.

(** The summary shows the twenty dearest: no other is dearer than one of them. *)
Theorem C100_shown : exists t l tot, gathered skip g root = Some (t, l, tot) /\ length (shown l) = Nat.min 20 (length l) /\
  forall a b, In a (shown l) -> In b l -> ~ In b (shown l) -> (time_of g b <= time_of g a)%N.
Proof.
  destruct C100_dearest as (t&l&tot&E&Nd&_&O). exists t, l, tot. split; [exact E|]. unfold shown. split; [apply firstn_length|].
  intros a b A B Nb. pose proof (firstn_skipn 20 l) as Q. remember (firstn 20 l) as x. remember (skipn 20 l) as y. rewrite <- Q in B. apply in_app_or in B as [B|B]; [contradiction|].
  apply In_nth_error in A as (i&A). apply In_nth_error in B as (j&B). assert (Li : i < length x) by (apply nth_error_Some; congruence).
  refine (O i (length x + j) a b _ _ _); [lia| |]; rewrite <- Q.
  - rewrite nth_error_app1 by exact Li. exact A.
  - rewrite nth_error_app2 by lia. now replace (length x + j - length x) with j by lia.
Qed.

(** The totals are those of all nodes but proxies, each once. *)
Theorem C100_totals : (forall d, In d g -> type d < NUM_TYPES) -> exists t l tot ns ds, gathered skip g root = Some (t, l, tot) /\ of_build skip g root ns ds /\
  let is d := negb (Nat.eqb (type d) PROXY) in
  processed tot = many is ds /\ s_built tot = many (fun d => is d && built (flag d)) ds /\
  hits tot = many (fun d => is d && hit (flag d)) ds /\ misses tot = many (fun d => is d && miss (flag d)) ds /\ stores tot = many (fun d => is d && store (flag d)) ds /\
  light_hits tot = many (fun d => is d && (light (flag d) && hit (flag d))) ds /\
  light_stores tot = many (fun d => is d && (light (flag d) && negb (hit (flag d)) && store (flag d))) ds /\
  cache_time tot = sum caching (fun d => is d && store (flag d)) ds.
Proof.
  intros Ty. destruct (gathered_ok) as (ns&ds&t&l&E&B&T&_). exists t, l, (totals t), ns, ds. split; [exact E|]. split; [exact B|].
  destruct (counted_ok g ns ds (proj2 (proj2 B))) as (C&_). rewrite <- T in C. unfold totals. rewrite (totals_upto t ds C NUM_TYPES).
  assert (X : forall d, In d ds -> below NUM_TYPES d = negb (Nat.eqb (type d) PROXY)).
  { intros d I. assert (Ig : In d g). { destruct B as (_&_&W). apply (in_map Some) in I. rewrite <- W in I. apply in_map_iff in I as (n&H&_). now apply nth_error_In in H. }
    unfold below, real. pose proof (Ty d Ig) as Lt. apply Nat.ltb_lt in Lt. rewrite Lt. apply andb_true_r. }
  unfold no_cpu, stats_of, many, sum. cbn [processed s_built hits misses stores light_hits light_misses light_stores cpu s_failed cache_time].
  repeat split; try (f_equal; f_equal; f_equal; apply filter_ext_in; intros d I; now rewrite (X d I)); try (f_equal; f_equal; f_equal; f_equal; apply filter_ext_in; intros d I; now rewrite (X d I)).
Qed.
End C100.
Print Assumptions C100_counts.
Print Assumptions C100_times.
Print Assumptions C100_dearest.
Print Assumptions C100_shown.
Print Assumptions C100_totals.

(** What holds of the light cache: an object that it has is a light hit, one that it lacks and then takes is a light store. *)
Theorem C100_light_partial : forall read write found ok kept, let f := light_object read write found ok kept in
  (light f && hit f = true <-> read = true /\ found = true) /\
  (light f && negb (hit f) && store f = true <-> (read = false \/ found = false) /\ ok = true /\ write = true /\ kept = true) /\
  (miss f = true <-> read = true /\ found = false).
Proof. intros [] [] [] [] []; cbn; intuition congruence. Qed.
Print Assumptions C100_light_partial.

(** But light misses are not the light objects that were missed: one that is stored afterwards is not counted, and one that was never looked for is. *)
Theorem C100_light_misses_refuted :
  (exists f, f = light_object true true false true true /\ miss f = true /\ light f = true /\ forall d s, flag d = f -> misses (note d s) = add (misses s) 1 /\ light_misses (note d s) = light_misses s) /\
  (exists f, f = light_object false true false true false /\ miss f = false /\ forall d s, flag d = f -> misses (note d s) = misses s /\ light_misses (note d s) = add (light_misses s) 1).
Proof.
  split; eexists; (split; [reflexivity|]); (split; [reflexivity|]); try (split; [reflexivity|]); intros d s F; unfold note; rewrite F; now split.
Qed.
Print Assumptions C100_light_misses_refuted.

(** Nor do the totals have the failures or the processor time. *)
Theorem C100_total_failed_refuted : forall t, s_failed (totals t) = 0%N /\ cpu (totals t) = 0%N.
Proof.
  intros t. unfold totals. assert (H : forall l s, s_failed s = 0%N /\ cpu s = 0%N -> s_failed (fold_left (fun s k => add_up s (per_type t k)) l s) = 0%N /\ cpu (fold_left (fun s k => add_up s (per_type t k)) l s) = 0%N).
  { induction l as [|k r IH]; intros s H; [exact H|]. cbn [fold_left]. apply IH. exact H. }
  apply H. now split.
Qed.
Print Assumptions C100_total_failed_refuted.

(** An alias of two objects that share a source; one object was stored in the cache, the other failed; the source is reached twice, and a proxy is not counted. *)
Definition ex : graph :=
  let none := Flags false false false false false false false in
  [Node 7 0 0 0 none [] [1; 2] []; Node 6 5 9 2 (light_object true true false true true) [] [3] [3]; Node 6 8 0 0 (light_object true true false false true) [4] [3] [];
   Node FILE 1 0 0 none [] [] []; Node PROXY 3 0 0 none [] [] []; Node 6 4 0 0 none [] [] []].
Example C100_case : sound ex /\ (forall d, In d ex -> type d < NUM_TYPES) /\
  match gathered false ex 0 with
  | Some (t, l, tot) => l = [2; 1] /\ local t = 14%N /\ processed tot = 4%N /\ processed (per_type t 6) = 2%N /\ s_built tot = 1%N /\ s_failed (per_type t 6) = 1%N /\
                        misses tot = 2%N /\ light_misses tot = 1%N /\ light_stores tot = 1%N /\ processed (per_type t FILE) = 1%N
  | None => False
  end.
Proof.
  split; [|split].
  - intros d I m M. cbn in I. repeat (destruct I as [<-|I]; [cbn in M; cbn; lia|]). destruct I.
  - intros d I. cbn in I. unfold NUM_TYPES. repeat (destruct I as [<-|I]; [cbn; unfold FILE, PROXY; lia|]). destruct I.
  - vm_compute. repeat split.
Qed.
