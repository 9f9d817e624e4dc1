(** Proofs about XCode projects: the whole project. *)
From Coq Require Import String Ascii List Arith Bool NArith Lia Permutation.
From Verif Require Import M_Path M_Names M_Array M_Sort M_Dir M_Drv M_Xcode S_Xcode S_Sort P_Sort P_Drv P_Dir2 P_Link P_Xcode P_Xcode2 P_Xcode3 P_Xcode4.
Import ListNotations.
Local Open Scope list_scope.
Local Notation "'length'" := List.length.

Lemma generate_spec p bases adds c0 cs : exists ps fo go A B,
  good (native p) (relative p bases) ps adds /\ needed (native p) (relative p bases) ps adds /\ shape p (relative p bases) ps adds fo go A B /\
  generate p bases adds (c0 :: cs) = Some (prj p (relative p bases) ps adds fo go A B c0 cs).
Proof.
  unfold generate. destruct (tree_spec p bases adds) as (ps&E&G&ND). rewrite E. destruct (write_spec p (relative p bases) ps adds G c0 cs) as (fo&go&A&B&S&W).
  exists ps, fo, go, A, B. auto.
Qed.

Lemma nodup_right {X} (a b : list X) : NoDup (a ++ b) -> NoDup b.
Proof. induction a as [|x a IH]; cbn; [auto|]. intros H. inversion H; auto. Qed.
Section X.
Context (p : plat) (rel : str -> str) (ps fs : list str) (G : good (native p) rel ps fs) (fo go : list nat) (A B : nat -> list nat)
        (SH : shape p rel ps fs fo go A B) (c0 : str) (cs : list str).
Notation prj := (prj p rel ps fs fo go A B c0 cs).
Notation k := (length (c0 :: cs)).
Lemma range0 n : range 0 n = map N.of_nat (seq 0 n).
Proof. unfold range. apply map_ext. intros i. lia. Qed.
Lemma config_ids n (l : list str) : map fst (map write_config (numbered n l)) = map config_id (range n (length l)).
Proof. unfold range. rewrite <- numbered_fst, !map_map. reflexivity. Qed.
Lemma prj_ids : ids prj = all_ids (length fs) (length ps) k.
Proof.
  pose proof (fo_nodup _ _ _ _ _ _ _ _ SH) as NF. pose proof (go_nodup _ _ _ _ _ _ _ _ SH) as NG.
  unfold ids, P_Xcode3.prj, all_ids. rewrite !map_app. rewrite (range0 (length fs)), (range0 (length ps)).
  rewrite <- (fo_len _ _ _ _ _ _ _ _ SH), <- (go_len _ _ _ _ _ _ _ _ SH). rewrite <- (map_position fo NF), <- (map_position go NG), !map_map. cbn [fst write_build robj gobj].
  f_equal. f_equal. f_equal. unfold tail_of, targets_of, configs_of. rewrite !map_app, !config_ids, <- !app_assoc. reflexivity.
Qed.
Context (FIT : (N.of_nat (length prj) < 4294967296)%N).
Lemma fit_ps : (N.of_nat (length ps) < 4294967296)%N.
Proof. rewrite <- (go_len _ _ _ _ _ _ _ _ SH). revert FIT. unfold P_Xcode3.prj. rewrite !app_length, !map_length. lia. Qed.
Lemma prj_nodup : k <= 100 -> NoDup (ids prj).
Proof. intros K. rewrite prj_ids. apply all_ids_nodup; [exact K|exact fit_ps]. Qed.
Lemma prj_dup : 100 < k -> ~ NoDup (ids prj).
Proof.
  intros K N. rewrite prj_ids in N. unfold all_ids in N. rewrite !map_app in N.
  assert (D : forall (a b c d e f g : list str) x, NoDup (a ++ b ++ c ++ d ++ (e ++ f ++ g)) -> In x e -> In x f -> False).
  { intros a b c d e f g x H I J. do 4 apply nodup_right in H. apply (in_split) in I as (e1&e2&->). rewrite <- app_assoc in H. cbn in H. apply NoDup_remove_2 in H. apply H. rewrite !in_app_iff. tauto. }
  rewrite <- !app_assoc in N.
  apply (D (map build_id (range 0 (length fs))) (map ref_id (range 0 (length fs))) (map group_id (range 0 (length ps))) [legacy_id 0; native_id 0; project_id 0; phase_id 0]
    (map config_id (range 0 k)) (map config_id (range 100 k)) (map config_id (range 200 k) ++ [list_id 0; list_id 1; list_id 2]) (config_id 100)).
  - exact N.
  - apply in_map, in_range. lia.
  - apply in_map, in_range. lia.
Qed.
Lemma mention_all x r : In x prj -> In r (mentions (snd x)) -> In r (ids prj).
Proof.
  rewrite prj_ids. intros I. unfold P_Xcode3.prj in I. rewrite !in_app_iff in I. unfold all_ids. rewrite !in_app_iff.
  assert (PF : forall i, i < length fs -> In (position fo i) (range 0 (length fs))).
  { intros i L. apply in_range. pose proof (position_lt fo i (fo_nodup _ _ _ _ _ _ _ _ SH) (proj2 (in_fo _ _ _ _ _ _ _ _ SH i) L)). rewrite (fo_len _ _ _ _ _ _ _ _ SH) in *. lia. }
  assert (PG : forall i, i < length ps -> In (position go i) (range 0 (length ps))).
  { intros i L. apply in_range. pose proof (position_lt go i (go_nodup _ _ _ _ _ _ _ _ SH) (proj2 (in_go _ _ _ _ _ _ _ _ SH i) L)). rewrite (go_len _ _ _ _ _ _ _ _ SH) in *. lia. }
  assert (CFG : forall n, n = 0%N \/ n = 100%N \/ n = 200%N -> forall r, In r (map (fun c : N * str => config_id (fst c)) (numbered n (c0 :: cs))) -> In r (map config_id (range 0 k ++ range 100 k ++ range 200 k))).
  { intros n H q HQ. rewrite <- (map_map fst config_id), numbered_fst in HQ. fold (range n k) in HQ. rewrite !map_app, !in_app_iff. destruct H as [->|[->| ->]]; tauto. }
  destruct I as [I|[I|[I|I]]].
  - apply in_map_iff in I as (i&<-&I). cbn [snd write_build mentions In]. intros [<-|[]]. right. left. apply in_map, PF. now apply (in_fo _ _ _ _ _ _ _ _ SH).
  - apply in_map_iff in I as (i&<-&I). cbn. intros [].
  - apply in_map_iff in I as (j&<-&I). apply (in_go _ _ _ _ _ _ _ _ SH) in I. cbn [snd gobj mentions]. rewrite in_app_iff. intros [H|H]; apply in_map_iff in H as (i&<-&H).
    + apply (s_inA _ _ _ _ _ _ _ _ SH) in H as [H _]; [|exact I]. right. left. apply in_map, PF, H.
    + apply (s_inB _ _ _ _ _ _ _ _ SH) in H as [H _]; [|exact I]. right. right. left. unfold gid. apply (in_map group_id), PG. lia.
  - unfold tail_of, targets_of, configs_of in I. rewrite !in_app_iff in I. destruct I as [I|[I|[I|[I|I]]]].
    + cbn [In] in I. destruct I as [<-|[<-|[<-|[<-|[]]]]]; cbn [snd mentions].
      * intros [<-|[<-|[]]]; cbn [In]; tauto.
      * intros [<-|[<-|[]]]; cbn [In]; tauto.
      * intros [<-|[<-|[<-|[<-|[]]]]]; [cbn [In]; tauto| |cbn [In]; tauto|cbn [In]; tauto]. right. right. left. apply in_map, in_range. pose proof (root_at _ _ _ _ G). lia.
      * intros H. apply in_map_iff in H as (i&<-&H). left. apply in_map, PF. now apply (in_fo _ _ _ _ _ _ _ _ SH).
    + apply in_map_iff in I as (y&<-&_). intros [].
    + apply in_map_iff in I as (y&<-&_). intros [].
    + apply in_map_iff in I as (y&<-&_). intros [].
    + apply in_map_iff in I as (y&<-&I). cbn [snd mentions]. intros H. right. right. right. right. left. apply (CFG (snd y)); [|exact H]. destruct I as [<-|[<-|[<-|[]]]]; cbn; tauto.
Qed.
Lemma prj_project : In (project_id 0, Project (list_id 0) (group_id 0) [legacy_id 0; native_id 0]) prj.
Proof. unfold P_Xcode3.prj, tail_of, targets_of. rewrite !in_app_iff. right. right. right. left. cbn [In]. tauto. Qed.
Lemma prj_sources : In (phase_id 0, Sources (ids (filter is_build prj))) prj.
Proof.
  destruct (kinds p rel ps fs fo go A B c0 cs) as (_&_&E). rewrite E. unfold ids. rewrite map_map. unfold P_Xcode3.prj, tail_of, targets_of. rewrite !in_app_iff. right. right. right. left. cbn [In fst write_build]. tauto.
Qed.
Lemma prj_builds : flat_map (fun x => mentions (snd x)) (filter is_build prj) = ids (filter is_ref prj).
Proof.
  destruct (kinds p rel ps fs fo go A B c0 cs) as (_&E2&E). rewrite E, E2. unfold ids. rewrite map_map. cbn [fst robj]. rewrite flat_map_concat_map, map_map. cbn [snd write_build mentions]. rewrite <- flat_map_concat_map. generalize (position fo). intros h. clear. induction fo as [|i l IH]; [reflexivity|]. cbn [flat_map map app]. now rewrite IH.
Qed.
End X.

(** *** The name of the project *)
Lemma project_name_spec p d n e f : (p = posix \/ p = win) -> ~ In (native p) n -> ~ In (native p) e -> ~ In dot e -> e <> [] -> ~ In (native p) f ->
  project_name p (d ++ native p :: n ++ dot :: e ++ native p :: f) = Some n.
Proof.
  intros HP HN HE HD NE HF. unfold project_name. set (m := d ++ native p :: n ++ dot :: e).
  assert (E0 : d ++ native p :: n ++ dot :: e ++ native p :: f = m ++ native p :: f) by (unfold m; rewrite <- !app_assoc; cbn; now rewrite <- !app_assoc).
  rewrite E0, last_at_app by exact HF. destruct (exists_last NE) as (e'&x&->).
  set (m' := d ++ native p :: n ++ dot :: e').
  assert (E1 : m = m' ++ [x]) by (unfold m, m'; rewrite <- !app_assoc; cbn; rewrite <- !app_assoc; reflexivity).
  assert (LM : length m = S (length m')) by (rewrite E1, app_length; cbn; lia). rewrite LM. cbn iota zeta beta. replace (S (length m') - 1) with (length m') by lia.
  assert (T : firstn (length m') (m ++ native p :: f) = m') by (rewrite E1, <- app_assoc, firstn_app, firstn_all, Nat.sub_diag; cbn; apply app_nil_r). rewrite T.
  assert (DN : dot <> native p) by (destruct HP as [-> | ->]; discriminate).
  assert (T1 : last_at (native p) m' = Some (length d)).
  { unfold m'. apply last_at_app. rewrite in_app_iff. cbn [In]. rewrite in_app_iff in HE. intuition. }
  assert (T2 : last_at dot m' = Some (length (d ++ native p :: n))).
  { unfold m'. replace (d ++ native p :: n ++ dot :: e') with ((d ++ native p :: n) ++ dot :: e') by (rewrite <- app_assoc; reflexivity). apply last_at_app. rewrite in_app_iff in HD. tauto. }
  rewrite T1, T2. rewrite app_length. cbn [length]. destruct (Nat.ltb_spec (length d + S (length n)) (S (length d))); [lia|]. f_equal.
  replace (length d + S (length n) - S (length d)) with (length n) by lia. unfold m'.
  replace (d ++ native p :: n ++ dot :: e') with ((d ++ [native p]) ++ n ++ dot :: e') by (rewrite <- app_assoc; reflexivity).
  rewrite skipn_app. rewrite skipn_all2 by (rewrite app_length; cbn [length]; lia). replace (S (length d) - length (d ++ [native p])) with 0 by (rewrite app_length; cbn [length]; lia).
  cbn [app skipn]. rewrite firstn_app, firstn_all, Nat.sub_diag. cbn. apply app_nil_r.
Qed.
