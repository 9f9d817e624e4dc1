(** Proofs about XCode projects: texts, base paths, and all identifiers of a project. *)
From Coq Require Import String Ascii List Arith Bool NArith Lia Permutation.
From Verif Require Import M_Path M_Names M_Array M_Sort M_Dir M_Drv M_Xcode S_Xcode S_Sort P_Sort P_Drv P_Dir2 P_Link P_Xcode P_Xcode2 P_Xcode3.
Import ListNotations.
Local Open Scope list_scope.
Local Notation "'length'" := List.length.

(** *** Texts *)
Lemma unquoted_all s rest : (forall c, In c s -> bareb c = true) -> unquoted (s ++ L ";" ++ rest) = (s, L ";" ++ rest).
Proof. induction s as [|c s IH]; intros H; [reflexivity|]. cbn [app unquoted]. rewrite (H c) by now left. rewrite IH by (intros; apply H; now right). reflexivity. Qed.
Lemma plain_denotes n : plain n -> denotes n n.
Proof.
  intros [N H] rest. unfold value. destruct n as [|c n]; [congruence|]. pose proof (unquoted_all (c :: n) rest H) as U. cbn [app] in *.
  assert (Q : Ascii.eqb c (ascii_of_nat 34) = false). { destruct (Ascii.eqb_spec c (ascii_of_nat 34)) as [->|]; [|reflexivity]. specialize (H (ascii_of_nat 34) (or_introl eq_refl)). discriminate H. }
  rewrite Q, U. reflexivity.
Qed.
Lemma safe_bare c : safe c = true -> bareb c = true.
Proof.
  unfold safe, bareb, between. change (nat_of_ascii "a") with 97. change (nat_of_ascii "z") with 122. change (nat_of_ascii "A") with 65. change (nat_of_ascii "Z") with 90. change (nat_of_ascii "0") with 48. change (nat_of_ascii "9") with 57.
  generalize ((97 <=? nat_of_ascii c) && (nat_of_ascii c <=? 122)) ((65 <=? nat_of_ascii c) && (nat_of_ascii c <=? 90)) ((48 <=? nat_of_ascii c) && (nat_of_ascii c <=? 57)). intros x y z.
  destruct x, y, z, (Ascii.eqb c "$"), (Ascii.eqb c "_"), (Ascii.eqb c "."), (Ascii.eqb c "/"), (Ascii.eqb c ":"), (Ascii.eqb c "-"); cbn; congruence.
Qed.
Lemma quoted_all s rest : quoted (flat_map escaped s ++ quote_ :: rest) = Some (s, rest).
Proof.
  induction s as [|c s IH]; [reflexivity|]. cbn [flat_map]. rewrite <- app_assoc. unfold escaped at 1. destruct (Ascii.eqb_spec c "\") as [->|N1].
  - cbn [orb app]. cbn [quoted]. change (Ascii.eqb "\" (ascii_of_nat 34)) with false. change (Ascii.eqb "\" "\") with true. cbn [orb]. now rewrite IH.
  - cbn [orb]. destruct (Ascii.eqb_spec c quote_) as [->|N2].
    + cbn [app quoted]. change (Ascii.eqb "\" (ascii_of_nat 34)) with false. change (Ascii.eqb "\" "\") with true. change (Ascii.eqb quote_ (ascii_of_nat 34)) with true. cbn [orb]. now rewrite IH.
    + cbn [app quoted]. destruct (Ascii.eqb_spec c (ascii_of_nat 34)); [contradiction|]. destruct (Ascii.eqb_spec c "\"); [contradiction|]. now rewrite IH.
Qed.
Lemma process_denotes v : denotes (process_string v) v.
Proof.
  destruct v as [|c v]; [intros rest; reflexivity|]. unfold process_string. destruct (forallb safe (c :: v)) eqn:E.
  - apply plain_denotes. split; [discriminate|]. intros d I. apply safe_bare. rewrite forallb_forall in E. now apply E.
  - intros rest. rewrite <- !app_assoc. cbn [app value]. change (Ascii.eqb quote_ (ascii_of_nat 34)) with true. cbn iota. exact (quoted_all (c :: v) (L ";" ++ rest)).
Qed.
Lemma attribute_all s rest : (forall c, In c s -> 32 <= nat_of_ascii c) -> exists k, forall k', k <= k' -> attribute k' (escape_argument s ++ quote_ :: rest) = Some (s, rest).
Proof.
  induction s as [|c s IH]; intros H; [exists 1; intros [|k'] L; [lia|reflexivity]|]. destruct IH as (k&IH); [intros; apply H; now right|]. exists (S k). intros [|k'] L; [lia|]. specialize (IH k' ltac:(lia)).
  unfold escape_argument. cbn [flat_map]. rewrite <- app_assoc. fold (escape_argument s). unfold escape_char. specialize (H c (or_introl eq_refl)).
  destruct (Ascii.eqb_spec c ">") as [->|N1]; [match goal with |- ?l = _ => change l with (match attribute k' (escape_argument s ++ quote_ :: rest) with Some (v, u) => Some (">"%char :: v, u) | None => None end) end; now rewrite IH|]. destruct (Ascii.eqb_spec c "<") as [->|N2]; [match goal with |- ?l = _ => change l with (match attribute k' (escape_argument s ++ quote_ :: rest) with Some (v, u) => Some ("<"%char :: v, u) | None => None end) end; now rewrite IH|].
  destruct (Ascii.eqb_spec c quote_) as [->|N3]; [match goal with |- ?l = _ => change l with (match attribute k' (escape_argument s ++ quote_ :: rest) with Some (v, u) => Some (quote_ :: v, u) | None => None end) end; now rewrite IH|]. destruct (Ascii.eqb_spec c "&") as [->|N4]; [match goal with |- ?l = _ => change l with (match attribute k' (escape_argument s ++ quote_ :: rest) with Some (v, u) => Some ("&"%char :: v, u) | None => None end) end; now rewrite IH|].
  cbn [app attribute]. destruct (Ascii.eqb_spec c (ascii_of_nat 34)); [contradiction|]. destruct (Ascii.eqb_spec c "<"); [contradiction|]. destruct (Ascii.eqb_spec c "&"); [contradiction|].
  destruct (Nat.ltb_spec (nat_of_ascii c) 32); [lia|]. now rewrite IH.
Qed.

(** *** Base paths *)
Lemma begins_iff p f b : begins_with p f b = true <-> exists r, Begins p f b r.
Proof.
  unfold begins_with, Begins. destruct (windows p).
  - rewrite starts_iff. split.
    + intros (x&E). exists (skipn (length b) f), (firstn (length b) f). split; [symmetry; apply firstn_skipn|]. unfold lower in *. rewrite <- firstn_map, E, firstn_app, map_length, Nat.sub_diag. cbn. rewrite app_nil_r. apply firstn_all2. rewrite map_length. lia.
    + intros (r&h&->&E). exists (lower r). rewrite lower_app. now rewrite E.
  - rewrite starts_iff. split; [intros (x&->); now exists x, b|intros (r&h&->&->); eauto].
Qed.
Lemma begins_skip p f b r : Begins p f b r -> r = skipn (length b) f.
Proof.
  intros (h&->&E). assert (LH : length h = length b) by (destruct (windows p); [now rewrite <- (lower_len h), <- (lower_len b), E|now rewrite E]).
  rewrite <- LH, skipn_app, skipn_all, Nat.sub_diag. reflexivity.
Qed.
Lemma best_spec p f : forall l b, (b = [] \/ begins_with p f b = true) ->
  let x := best p f l b in (x = b \/ In x l) /\ (x = [] \/ begins_with p f x = true) /\ length b <= length x /\ forall y, In y l -> begins_with p f y = true -> length y <= length x.
Proof.
  induction l as [|y l IH]; intros b HB; cbv zeta; cbn [best].
  - split; [now left|]. split; [exact HB|]. split; [lia|intros ? []].
  - destruct (Nat.leb_spec (length y) (length b)) as [L1|L1]; [|destruct (begins_with p f y) eqn:Y].
    + destruct (IH b HB) as (A&B&C&D). split; [destruct A as [A|A]; [now left|right; now right]|]. split; [exact B|]. split; [exact C|]. intros z [<-|I] H; [lia|now apply D].
    + destruct (IH y (or_intror Y)) as (A&B&C&D). split; [destruct A as [->|A]; right; [now left|now right]|]. split; [exact B|]. split; [lia|]. intros z [<-|I] H; [lia|now apply D].
    + destruct (IH b HB) as (A&B&C&D). split; [destruct A as [A|A]; [now left|right; now right]|]. split; [exact B|]. split; [exact C|]. intros z [<-|I] H; [congruence|now apply D].
Qed.
Lemma begins_nil p f : Begins p f [] f. Proof. exists []. split; [reflexivity|]. now destruct (windows p). Qed.
Lemma relative_spec p bases f r : Relative p bases f r <-> r = relative p bases f.
Proof.
  destruct (best_spec p f bases [] (or_introl eq_refl)) as (A&B&_&D). unfold relative. set (x := best p f bases []) in *. split.
  - intros (b&IB&HB&MX). rewrite (begins_skip _ _ _ _ HB). f_equal. apply Nat.le_antisymm.
    + destruct IB as [->|IB]; [cbn; lia|]. apply D; [exact IB|]. apply begins_iff. eauto.
    + destruct A as [->|A]; [cbn; lia|]. destruct B as [->|B]; [cbn; lia|]. apply begins_iff in B as (r'&B). now apply (MX x r').
  - intros ->. exists x. split; [exact A|]. split.
    + destruct B as [->|B]; [apply begins_nil|]. apply begins_iff in B as (r'&B). now rewrite <- (begins_skip _ _ _ _ B).
    + intros b' r' I H. apply D; [exact I|]. apply begins_iff. eauto.
Qed.
Lemma short_spec p r : p = posix \/ p = win -> ~ In (other p) r -> short_name r = name_of (native p) r.
Proof.
  unfold short_name. intros [->| ->] N; cbn [native other posix win] in *.
  - destruct (last_at "/" r) as [k|] eqn:E; cbn [after]; [now rewrite (name_part _ _ _ E)|]. rewrite (last_at_none _ _ N). cbn [after]. now rewrite (name_whole _ _ E).
  - rewrite (last_at_none _ _ N). cbn [after]. destruct (last_at "\" r) as [k|] eqn:E; cbn [after]; [now rewrite (name_part _ _ _ E)|now rewrite (name_whole _ _ E)].
Qed.

(** *** All identifiers *)
Lemma numbered_fst {A} : forall (l : list A) n, map fst (numbered n l) = map (fun k => (n + N.of_nat k)%N) (seq 0 (length l)).
Proof.
  induction l as [|x l IH]; intros n; [reflexivity|]. cbn [numbered map length seq fst]. rewrite N.add_0_r. f_equal. rewrite IH, <- seq_shift, map_map. apply map_ext. intros k. lia.
Qed.
Definition range (n : N) (k : nat) : list N := map (fun i => (n + N.of_nat i)%N) (seq 0 k).
Lemma in_range n k x : In x (range n k) <-> (n <= x < n + N.of_nat k)%N.
Proof.
  unfold range. rewrite in_map_iff. split; [intros (i&<-&I); apply in_seq in I; lia|]. intros H. exists (N.to_nat (x - n)). split; [lia|]. apply in_seq. lia.
Qed.
Lemma range_nodup n k : NoDup (range n k).
Proof. apply FinFun.Injective_map_NoDup; [intros a b H; lia|apply seq_NoDup]. Qed.
Lemma nodup_map_in {A B} (f : A -> B) l : (forall x y, In x l -> In y l -> f x = f y -> x = y) -> NoDup l -> NoDup (map f l).
Proof.
  induction l as [|x l IH]; intros H N; cbn; [constructor|]. inversion N; subst. constructor.
  - rewrite in_map_iff. intros (y&E&I). apply H in E; [subst; contradiction|now right|now left].
  - apply IH; [|assumption]. intros; apply H; auto; now right.
Qed.
Lemma nodup_app {A} (l m : list A) : NoDup l -> NoDup m -> (forall x, In x l -> ~ In x m) -> NoDup (l ++ m).
Proof.
  induction l as [|x l IH]; intros N M D; cbn; [exact M|]. inversion N; subst. constructor.
  - rewrite in_app_iff. intros [K|K]; [contradiction|]. apply (D x); [now left|exact K].
  - apply IH; auto. intros; apply D; now right.
Qed.
Definition class (s : str) : str := firstn 16 s.
Definition all_ids (nf ng k : nat) : list str :=
  map build_id (range 0 nf) ++ map ref_id (range 0 nf) ++ map group_id (range 0 ng) ++ [legacy_id 0; native_id 0; project_id 0; phase_id 0]
  ++ map config_id (range 0 k ++ range 100 k ++ range 200 k) ++ [list_id 0; list_id 1; list_id 2].
Lemma class_of {A} (f : A -> str) t l x : (forall a, class (f a) = t) -> In x (map f l) -> class x = t.
Proof. intros H I. apply in_map_iff in I as (a&<-&_). apply H. Qed.
Lemma all_ids_nodup nf ng k : k <= 100 -> (N.of_nat ng < 4294967296)%N -> NoDup (all_ids nf ng k).
Proof.
  intros K FG. unfold all_ids.
  assert (CB : forall l x, In x (map build_id l) -> class x = L "1111111100000000") by (intros; eapply class_of; [|eassumption]; reflexivity).
  assert (CR : forall l x, In x (map ref_id l) -> class x = L "1111111111111111") by (intros; eapply class_of; [|eassumption]; reflexivity).
  assert (CG : forall l x, In x (map group_id l) -> class x = L "2222222222222222") by (intros; eapply class_of; [|eassumption]; reflexivity).
  assert (CC : forall l x, In x (map config_id l) -> class x = L "6666666666666666") by (intros; eapply class_of; [|eassumption]; reflexivity).
  assert (CF : forall x, In x [legacy_id 0; native_id 0; project_id 0; phase_id 0] -> In (class x) [L "3333333333333333"; L "3333333300000000"; L "4444444444444444"; L "7777777777777777"]).
  { intros x [<-|[<-|[<-|[<-|[]]]]]; vm_compute; auto. }
  assert (CL : forall x, In x [list_id 0; list_id 1; list_id 2] -> class x = L "5555555555555555") by (intros x [<-|[<-|[<-|[]]]]; reflexivity).
  assert (NC : NoDup (map config_id (range 0 k ++ range 100 k ++ range 200 k))).
  { apply nodup_map_in.
    - intros x y HX HY E. rewrite !in_app_iff, !in_range in HX, HY. apply config_inj in E; [exact E|lia|lia].
    - repeat apply nodup_app; try apply range_nodup; intros x HX; rewrite ?in_app_iff, !in_range in *; lia. }
  apply nodup_app; [apply nodup_map_in; [intros x y _ _; apply build_inj|apply range_nodup]| |].
  2: { intros x HX H. apply CB in HX. rewrite !in_app_iff in H. destruct H as [H|[H|[H|[H|H]]]]; [apply CR in H|apply CG in H|apply CF in H|apply CC in H|apply CL in H]; rewrite HX in H; try discriminate H. vm_compute in H. intuition discriminate. }
  apply nodup_app; [apply nodup_map_in; [intros x y _ _; apply ref_inj|apply range_nodup]| |].
  2: { intros x HX H. apply CR in HX. rewrite !in_app_iff in H. destruct H as [H|[H|[H|H]]]; [apply CG in H|apply CF in H|apply CC in H|apply CL in H]; rewrite HX in H; try discriminate H. vm_compute in H. intuition discriminate. }
  apply nodup_app; [apply nodup_map_in; [intros x y HX HY; rewrite in_range in HX, HY; apply group_inj; lia|apply range_nodup]| |].
  2: { intros x HX H. apply CG in HX. rewrite !in_app_iff in H. destruct H as [H|[H|H]]; [apply CF in H|apply CC in H|apply CL in H]; rewrite HX in H; try discriminate H. vm_compute in H. intuition discriminate. }
  apply nodup_app; [repeat (constructor; [cbn [In]; intros H; repeat destruct H as [H|H]; solve [discriminate H|destruct H]|]); constructor| |].
  2: { intros x HX H. apply CF in HX. rewrite !in_app_iff in H. destruct H as [H|H]; [apply CC in H|apply CL in H]; rewrite H in HX; vm_compute in HX; intuition discriminate. }
  apply nodup_app; [exact NC| |].
  - repeat (constructor; [cbn [In]; intros H; repeat destruct H as [H|H]; solve [discriminate H|destruct H]|]); constructor.
  - intros x HX H. apply CC in HX. apply CL in H. rewrite HX in H. discriminate H.
Qed.
