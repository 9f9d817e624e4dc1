(** A concrete case for the theorems about migration: an object list with one object. *)
From Coq Require Import String List Arith NArith Bool Ascii Lia.
From Verif Require Import M_Path M_Names M_Migrate S_Migrate P_Migrate P_Migrate2 P_Migrate3 P_Migrate4 P_Migrate5.
Import ListNotations.
Open Scope nat_scope.

Definition nc : str := ["c"%char]. Definition na : str := ["a"%char]. Definition nh : str := ["h"%char].
Definition no : str := ["o"%char]. Definition nl : str := ["L"%char].
Definition file (nm : str) : node := Node nm file_type FNil [] [] [] 0%N 0%N.
Definition p_list : fields := FCons false (PStr nc) FNil.
Definition p_obj : fields := FCons false (PNode (Some nl)) (FCons true (PNum 33%N) FNil).

(** The DB: compiler "c", object list "L", its object "o" made from "a", which included "h". *)
Definition old_case : graph :=
  [file nc;
   Node nl 2%N p_list [] [Dep 0 7%N false] [Dep 2 55%N false] 9%N 4%N;
   Node no 1%N p_obj [] [Dep 0 7%N false; Dep 3 8%N false] [Dep 4 6%N false] 55%N 3%N;
   file na; file nh].
(** The graph read from the BFF. *)
Definition new_case : graph := [file nc; Node nl 2%N p_list [] [Dep 0 0%N false] [] 0%N 0%N].

(** Preparing an object: its dependencies are the compiler and the source file. *)
Definition ensure (g : graph) (nm : str) : graph * nat :=
  match find_node g nm with Some j => (g, j) | None => (g ++ [file nm], length g) end.
Definition with_deps (l : list dep) (n : node) : node :=
  Node (name n) (type n) (props n) (pre n) l (dyn n) (stamp n) (cost n).
Definition init_case : initialiser := fun g k =>
  match nth_error g k with
  | None => g
  | Some n => if N.eqb (type n) 1%N then
                let r1 := ensure g nc in let r2 := ensure (fst r1) na in
                set_nth k (with_deps [Dep (snd r1) 0%N false; Dep (snd r2) 0%N false] n) (fst r2)
              else g
  end.
Definition R_case (s : str) : nat := if equals_i s no then 1 else if equals_i s nl then 2 else 0.

Lemma equals_i_trans : forall a b c, equals_i a b = true -> equals_i b c = true -> equals_i a c = true.
Proof.
  assert (Lz : forall x, lower_char x = nul -> x = nul).
  { intros x. destruct x as [[][][][][][][][]]; vm_compute; intros E; try discriminate E; reflexivity. }
  assert (Ln : lower_char nul = nul) by reflexivity.
  induction a as [|x a IH]; intros [|y b] [|z c] H1 H2; cbn [equals_i] in *; auto.
  - apply Ascii.eqb_eq in H1. subst y. rewrite Ln in H2.
    destruct (Ascii.eqb_spec nul (lower_char z)) as [E|]; [|discriminate]. symmetry in E. apply Lz in E. now rewrite E.
  - apply Ascii.eqb_eq in H1. apply Ascii.eqb_eq in H2. subst. reflexivity.
  - destruct (Ascii.eqb_spec (lower_char x) (lower_char y)) as [E|]; [|discriminate].
    apply Ascii.eqb_eq in H2. subst y. rewrite Ln in E. apply Lz in E. now rewrite E.
  - destruct (Ascii.eqb_spec (lower_char x) (lower_char y)) as [E1|]; [|discriminate].
    destruct (Ascii.eqb_spec (lower_char y) (lower_char z)) as [E2|]; [|discriminate].
    rewrite E1, E2, Ascii.eqb_refl. destruct (Ascii.eqb_spec x nul) as [Ex|Nx]; [reflexivity|].
    destruct (Ascii.eqb_spec y nul) as [->|Ny]; [rewrite Ln in E1; apply Lz in E1; contradiction|]. eauto.
Qed.
Lemma equals_i_cong : forall a b c, equals_i a b = true -> equals_i a c = equals_i b c.
Proof.
  intros a b c H. destruct (equals_i a c) eqn:E1, (equals_i b c) eqn:E2; auto.
  - apply equals_i_sym in H. now rewrite (equals_i_trans _ _ _ H E1) in E2.
  - now rewrite (equals_i_trans _ _ _ H E2) in E1.
Qed.
Lemma caseless_case : caseless R_case.
Proof. intros a b H. unfold R_case. now rewrite !(equals_i_cong _ _ _ H). Qed.

Lemma ensure_keeps : forall g nm j m, nth_error g j = Some m -> nth_error (fst (ensure g nm)) j = Some m.
Proof.
  intros g nm j m H. unfold ensure. destruct (find_node g nm); [exact H|]. cbn. rewrite nth_error_app1; [exact H|now apply nth_lt in H].
Qed.
Lemma ensure_finds : forall g nm, exists x, nth_error (fst (ensure g nm)) (snd (ensure g nm)) = Some x /\ equals_i (name x) nm = true /\
  (nth_error g (snd (ensure g nm)) = Some x \/ x = file nm).
Proof.
  intros g nm. unfold ensure. destruct (find_node g nm) as [j|] eqn:E.
  - apply find_some in E as (n & Hn & En). exists n. cbn. auto.
  - exists (file nm). cbn. rewrite nth_error_app2 by lia. rewrite Nat.sub_diag. split; [reflexivity|]. split; [apply equals_i_refl|now right].
Qed.
Lemma ensure_from : forall g nm j m, nth_error (fst (ensure g nm)) j = Some m -> nth_error g j = Some m \/ m = file nm.
Proof.
  intros g nm j m H. unfold ensure in H. destruct (find_node g nm); [now left|]. cbn in H.
  destruct (Nat.lt_ge_cases j (length g)) as [L|L].
  - rewrite nth_error_app1 in H by exact L. now left.
  - rewrite nth_error_app2 in H by exact L. destruct (j - length g) as [|[|k]]; try discriminate H. injection H as <-. now right.
Qed.
Lemma last_nth : forall (g : graph) n, nth_error (g ++ [n]) (length g) = Some n.
Proof. intros g n. rewrite nth_error_app2 by lia. now rewrite Nat.sub_diag. Qed.

(** what preparing a node of type 1 gives *)
Lemma init_object : forall g n, type n = 1%N ->
  exists g2 jc ja xc xa, init_case (g ++ [n]) (length g) = set_nth (length g) (with_deps [Dep jc 0%N false; Dep ja 0%N false] n) g2 /\
    (forall j m, nth_error (g ++ [n]) j = Some m -> nth_error g2 j = Some m) /\
    (forall j m, nth_error g2 j = Some m -> nth_error (g ++ [n]) j = Some m \/ m = file nc \/ m = file na) /\
    nth_error g2 jc = Some xc /\ equals_i (name xc) nc = true /\ nth_error g2 ja = Some xa /\ equals_i (name xa) na = true.
Proof.
  intros g n Ht. unfold init_case. rewrite last_nth, Ht. cbn [N.eqb Pos.eqb].
  set (r1 := ensure (g ++ [n]) nc). set (r2 := ensure (fst r1) na).
  destruct (ensure_finds (g ++ [n]) nc) as (xc & C1 & C2 & _). fold r1 in C1.
  destruct (ensure_finds (fst r1) na) as (xa & A1 & A2 & _). fold r2 in A1.
  exists (fst r2), (snd r1), (snd r2), xc, xa. split; [reflexivity|]. split.
  { intros j m H. apply ensure_keeps. now apply ensure_keeps. }
  split.
  { intros j m H. apply ensure_from in H as [H|H]; [|auto]. apply ensure_from in H as [H|H]; auto. }
  split; [now apply ensure_keeps|]. auto.
Qed.

Lemma from_case : forall n, from_old old_case n -> (name n = nl /\ type n = 2%N) \/ (name n = no /\ type n = 1%N).
Proof.
  intros n (h & o & Ho & Ht & Hn & Hy & _).
  destruct h as [|[|[|[|[|h]]]]]; cbn in Ho; try (injection Ho as <-); try (now destruct Ht); auto. destruct h; discriminate.
Qed.

Lemma prepares_case : prepares R_case old_case init_case.
Proof.
  assert (Two : forall g n, type n = 2%N -> init_case (g ++ [n]) (length g) = g ++ [n]).
  { intros g n Ht. unfold init_case. rewrite last_nth, Ht. reflexivity. }
  constructor.
  - intros g n j m F H. assert (H' : nth_error (g ++ [n]) j = Some m) by (rewrite nth_error_app1; [exact H|now apply nth_lt in H]).
    apply from_case in F as [[_ Ht]|[_ Ht]]; [now rewrite Two|].
    destruct (init_object g n Ht) as (g2 & jc & ja & xc & xa & E & K & _). rewrite E.
    rewrite set_nth_other; [now apply K|]. apply nth_lt in H. lia.
  - intros g n F. assert (Fr : fresh n) by (destruct F as (h & o & _ & _ & _ & _ & Fr & _); exact Fr).
    apply from_case in F as [[_ Ht]|[_ Ht]].
    + rewrite Two by exact Ht. exists n. rewrite last_nth. auto.
    + destruct (init_object g n Ht) as (g2 & jc & ja & xc & xa & E & K & _). rewrite E.
      eexists. rewrite set_nth_same; [split; [reflexivity|]; cbn; auto|].
      specialize (K (length g) n (last_nth g n)). now apply nth_lt in K.
  - intros g n j m F H L. apply from_case in F as [[_ Ht]|[_ Ht]].
    + rewrite Two in H by exact Ht. rewrite nth_error_app2 in H by lia. destruct (j - length g) as [|[|k]] eqn:E; try discriminate H. lia.
    + destruct (init_object g n Ht) as (g2 & jc & ja & xc & xa & E & K & Fm & _). rewrite E, set_nth_other in H by lia.
      apply Fm in H as [H|[->| ->]]; [|repeat split|repeat split]. apply nth_lt in H. rewrite app_length in H. cbn in H. lia.
  - intros g n F O. assert (Ep : pre n = [] /\ stat n = []) by (destruct F as (h & o & _ & _ & _ & _ & _ & P); exact P).
    assert (O1 : ordered R_case (g ++ [n])).
    { intros i x Hx d Hd. destruct (Nat.lt_ge_cases i (length g)) as [L|L].
      - rewrite nth_error_app1 in Hx by exact L. destruct (O i x Hx d Hd) as (m & Hm & Lt). exists m. split; [|exact Lt].
        rewrite nth_error_app1; [exact Hm|now apply nth_lt in Hm].
      - rewrite nth_error_app2 in Hx by exact L. destruct (i - length g) as [|[|k]]; try discriminate Hx. injection Hx as <-.
        destruct Ep as [E1 E2]. rewrite E1, E2 in Hd. destruct Hd. }
    apply from_case in F as [[_ Ht]|[Hn Ht]]; [now rewrite Two|].
    destruct (init_object g n Ht) as (g2 & jc & ja & xc & xa & E & K & Fm & C1 & C2 & A1 & A2). rewrite E.
    set (n' := with_deps [Dep jc 0%N false; Dep ja 0%N false] n).
    assert (Hk : nth_error g2 (length g) = Some n) by (apply K; apply last_nth).
    assert (S : forall j m, nth_error g2 j = Some m -> exists m', nth_error (set_nth (length g) n' g2) j = Some m' /\ name m' = name m).
    { intros j m Hm. destruct (Nat.eq_dec j (length g)) as [->|Ne].
      - exists n'. rewrite set_nth_same by (now apply nth_lt in Hk). split; [reflexivity|]. cbn. congruence.
      - exists m. now rewrite set_nth_other. }
    intros i x Hx d Hd. destruct (Nat.eq_dec i (length g)) as [->|Ne].
    + rewrite set_nth_same in Hx by (now apply nth_lt in Hk). injection Hx as <-. cbn in Hd. destruct Ep as [Ep _]. rewrite Ep in Hd. cbn in Hd.
      destruct Hd as [<-|[<-|[]]]; cbn [to].
      * destruct (S jc xc C1) as (m' & Hm' & En). exists m'. split; [exact Hm'|]. rewrite En, (caseless_case _ _ C2). cbn. rewrite Hn. vm_compute. lia.
      * destruct (S ja xa A1) as (m' & Hm' & En). exists m'. split; [exact Hm'|]. rewrite En, (caseless_case _ _ A2). cbn. rewrite Hn. vm_compute. lia.
    + rewrite set_nth_other in Hx by exact Ne. apply Fm in Hx as [Hx|[->| ->]]; [|destruct Hd|destruct Hd].
      destruct (O1 i x Hx d Hd) as (m & Hm & Lt). apply K in Hm. destruct (S _ _ Hm) as (m' & Hm' & En). exists m'. split; [exact Hm'|]. now rewrite En.
Qed.

Lemma old_nodes : forall h o, nth_error old_case h = Some o ->
  (h = 0 /\ o = file nc) \/ (h = 1 /\ o = Node nl 2%N p_list [] [Dep 0 7%N false] [Dep 2 55%N false] 9%N 4%N) \/
  (h = 2 /\ o = Node no 1%N p_obj [] [Dep 0 7%N false; Dep 3 8%N false] [Dep 4 6%N false] 55%N 3%N) \/
  (h = 3 /\ o = file na) \/ (h = 4 /\ o = file nh).
Proof.
  intros h o H. destruct h as [|[|[|[|[|h]]]]]; cbn in H; try (injection H as <-); auto 9. destruct h; discriminate.
Qed.
Lemma unique_case : unique old_case.
Proof.
  intros i j n m Hi Hj E. apply old_nodes in Hi. apply old_nodes in Hj.
  destruct Hi as [[-> ->]|[[-> ->]|[[-> ->]|[[-> ->]|[-> ->]]]]]; destruct Hj as [[-> ->]|[[-> ->]|[[-> ->]|[[-> ->]|[-> ->]]]]];
    try reflexivity; vm_compute in E; discriminate E.
Qed.
Lemma files_case : files_bare old_case.
Proof.
  intros i n Hi Ht. apply old_nodes in Hi. destruct Hi as [[-> ->]|[[-> ->]|[[-> ->]|[[-> ->]|[-> ->]]]]]; try discriminate Ht; auto.
Qed.
Lemma ordered_dyn_case : ordered_dyn R_case old_case.
Proof.
  intros i n Hi d Hd. apply old_nodes in Hi. destruct Hi as [[-> ->]|[[-> ->]|[[-> ->]|[[-> ->]|[-> ->]]]]]; cbn in Hd; try destruct Hd;
    try match goal with H : False |- _ => destruct H end; subst; eexists; (split; [reflexivity|]); vm_compute; lia.
Qed.
Lemma ordered_case : ordered R_case new_case.
Proof.
  intros i n Hi d Hd. destruct i as [|[|i]]; cbn in Hi; try (injection Hi as <-); cbn in Hd; try (destruct Hd as [<-|[]]); try (now destruct Hd).
  - eexists. split; [reflexivity|]. vm_compute. lia.
  - destruct i; discriminate.
Qed.
Lemma fresh_case : forall i n, nth_error new_case i = Some n -> fresh n.
Proof. intros i n Hi. destruct i as [|[|i]]; cbn in Hi; try (injection Hi as <-); try (now split). destruct i; discriminate. Qed.

Lemma unchanged_case : unchanged old_case new_case.
Proof.
  intros i n Hi. destruct i as [|[|i]]; cbn in Hi; try (injection Hi as <-).
  - exists 0, (file nc). split; [reflexivity|]. repeat split; constructor.
  - eexists 1, _. split; [reflexivity|]. repeat split; cbn; try constructor; try constructor; try constructor.
    exists (file nc), (file nc). auto.
  - destruct i; discriminate.
Qed.

(** a node of the graph with one of these names *)
Lemma exact_name : forall g i n nm h o, unchanged old_case g -> nth_error g i = Some n -> nth_error old_case h = Some o -> nm = name o ->
  equals_i (name n) nm = true -> defined_as old_case g n o.
Proof.
  intros g i n nm h o U Hi Ho -> E. destruct (U i n Hi) as (h' & o' & Ho' & D). pose proof D as (D1 & _). rewrite D1 in E.
  destruct (the_old old_case unique_case h' h o' o (name o) Ho' Ho E eq_refl) as [-> _]. exact D.
Qed.

Lemma recreates_case : recreates old_case init_case.
Proof.
  intros g h o Ho Ht U Hf W.
  assert (h = 2 /\ o = Node no 1%N p_obj [] [Dep 0 7%N false; Dep 3 8%N false] [Dep 4 6%N false] 55%N 3%N /\
          exists i n, nth_error g i = Some n /\ name n = nl) as (-> & -> & i & n & Hi & Hn).
  { destruct W as (k & op & d & i & n & Hk & Hd & <- & Hi & Hn). apply old_nodes in Hk.
    destruct Hk as [[-> ->]|[[-> ->]|[[-> ->]|[[-> ->]|[-> ->]]]]]; cbn in Hd; try destruct Hd as [<-|[]]; try (now destruct Hd).
    - cbn in Ho. injection Ho as <-. repeat split. eauto.
    - cbn in Ho. injection Ho as <-. now destruct Ht. }
  clear W Ht Ho.
  assert (Hfl : exists j, find_node (g ++ [created (Node no 1%N p_obj [] [Dep 0 7%N false; Dep 3 8%N false] [Dep 4 6%N false] 55%N 3%N) FNil]) nl = Some j /\
     name_of (g ++ [created (Node no 1%N p_obj [] [Dep 0 7%N false; Dep 3 8%N false] [Dep 4 6%N false] 55%N 3%N) FNil]) j = Some nl).
  { set (x := created _ _).
    destruct (find_node (g ++ [x]) nl) as [j|] eqn:E.
    - exists j. split; [reflexivity|]. apply find_some in E as (m & Hm & Em). unfold name_of. rewrite Hm. cbn. f_equal.
      destruct (Nat.lt_ge_cases j (length g)) as [L|L].
      + rewrite nth_error_app1 in Hm by exact L. destruct (exact_name g j m nl 1 _ U Hm eq_refl eq_refl Em) as (D & _). exact D.
      + rewrite nth_error_app2 in Hm by exact L. destruct (j - length g) as [|[|k]]; try discriminate Hm. injection Hm as <-. vm_compute in Em. discriminate.
    - exfalso. assert (Hi' : nth_error (g ++ [x]) i = Some n) by (rewrite nth_error_app1; [exact Hi|now apply nth_lt in Hi]).
      pose proof (find_none _ _ E i n Hi') as Q. rewrite Hn in Q. vm_compute in Q. discriminate. }
  destruct Hfl as (j & Fj & Nj). exists p_obj. split.
  { cbn [p_obj props copy_fields copy_val]. rewrite Fj, Nj. reflexivity. }
  set (n1 := created (Node no 1%N p_obj [] [Dep 0 7%N false; Dep 3 8%N false] [Dep 4 6%N false] 55%N 3%N) p_obj).
  destruct (init_object g n1 eq_refl) as (g2 & jc & ja & xc & xa & E & K & Fm & C1 & C2 & A1 & A2). rewrite E.
  set (n2 := with_deps [Dep jc 0%N false; Dep ja 0%N false] n1).
  assert (Hk : nth_error g2 (length g) = Some n1) by (apply K; apply last_nth).
  assert (KK : forall y m, nth_error g y = Some m -> exists m', nth_error (set_nth (length g) n2 g2) y = Some m' /\ kept m m').
  { intros y m Hm. exists m. split; [|apply kept_refl]. rewrite set_nth_other by (apply nth_lt in Hm; lia).
    apply K. rewrite nth_error_app1; [exact Hm|now apply nth_lt in Hm]. }
  assert (Fd : forall q z nm h o, nth_error g2 q = Some z -> equals_i (name z) nm = true -> nth_error old_case h = Some o -> name o = nm -> type o = file_type ->
     nm <> no -> nm = nc \/ nm = na -> nth_error (set_nth (length g) n2 g2) q = Some z /\ name z = name o /\ type z = type o).
  { intros q z nm h0 o0 Hq Ez Hh En Et Nno Nca.
    assert (Nq : q <> length g).
    { intros ->. rewrite Hk in Hq. injection Hq as <-. destruct Nca as [-> | ->]; vm_compute in Ez; discriminate Ez. }
    rewrite set_nth_other by exact Nq. split; [exact Hq|].
    apply Fm in Hq as [Hq|Hq].
    - destruct (Nat.lt_ge_cases q (length g)) as [L|L].
      + rewrite nth_error_app1 in Hq by exact L. destruct (exact_name g q z nm h0 o0 U Hq Hh (eq_sym En) Ez) as (D1 & D2 & _). auto.
      + apply nth_lt in Hq. rewrite app_length in Hq. cbn in Hq. lia.
    - destruct Nca as [-> | ->]; destruct Hq as [->| ->]; try (vm_compute in Ez; discriminate Ez); now rewrite En, Et. }
  destruct (Fd jc xc nc 0 (file nc) C1 C2 eq_refl eq_refl eq_refl) as (C3 & C4 & C5); [discriminate|now left|].
  destruct (Fd ja xa na 3 (file na) A1 A2 eq_refl eq_refl eq_refl) as (A3 & A4 & A5); [discriminate|now right|].
  intros y m Hm. destruct (Nat.eq_dec y (length g)) as [->|Ne].
  - rewrite set_nth_same in Hm by (now apply nth_lt in Hk). injection Hm as <-. eexists 2, _. split; [reflexivity|].
    split; [reflexivity|]. split; [reflexivity|]. split; [intros _; cbn; constructor; [constructor|constructor; constructor]|]. split; [constructor|]. cbn.
    constructor; [|constructor; [|constructor]].
    + exists xc, (file nc). cbn. auto.
    + exists xa, (file na). cbn. auto.
  - rewrite set_nth_other in Hm by exact Ne. apply Fm in Hm as [Hm|[->| ->]].
    + assert (L : y < length g) by (apply nth_lt in Hm; rewrite app_length in Hm; cbn in Hm; lia).
      rewrite nth_error_app1 in Hm by exact L. destruct (U y m Hm) as (h' & o' & Ho' & D). exists h', o'. split; [exact Ho'|].
      apply (defined_kept old_case g _ m m); auto using kept_refl.
    + exists 0, (file nc). split; [reflexivity|]. repeat split; constructor.
    + exists 3, (file na). split; [reflexivity|]. repeat split; constructor.
Qed.
