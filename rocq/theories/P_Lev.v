From Coq Require Import List Arith Bool Ascii NArith Lia.
From Verif Require Import M_Path M_Names M_Lev S_Lev.
Import ListNotations.

Lemma min3_min a b c : min3 a b c = Nat.min (Nat.min a b) c.
Proof. unfold min3. destruct (Nat.ltb_spec a b), (Nat.ltb_spec a c), (Nat.ltb_spec b c); lia. Qed.

Definition cst (c d : ascii) : nat := if Ascii.eqb c d then 0 else 1.
Fixpoint lev (a : str) : str -> nat :=
  match a with
  | [] => fun b => List.length b
  | c :: a' => fix inn (b : str) : nat :=
      match b with
      | [] => S (List.length a')
      | d :: b' => Nat.min (Nat.min (S (inn b')) (S (lev a' b))) (lev a' b' + cst c d)
      end
  end.
Lemma lev_nil_r a : lev a [] = List.length a.
Proof. destruct a; reflexivity. Qed.
Lemma lev_cons c a d b : lev (c :: a) (d :: b) = Nat.min (Nat.min (S (lev (c :: a) b)) (S (lev a (d :: b)))) (lev a b + cst c d).
Proof. reflexivity. Qed.
Lemma cst_le c d : cst c d <= 1.
Proof. unfold cst. destruct (Ascii.eqb c d); lia. Qed.
Lemma cst_refl c : cst c c = 0.
Proof. unfold cst. now rewrite Ascii.eqb_refl. Qed.

Lemma lev_del x a c : lev (x :: a) c <= S (lev a c).
Proof. destruct c as [|d c]; [rewrite lev_nil_r; cbn; rewrite lev_nil_r; lia|]. rewrite lev_cons. lia. Qed.
Lemma lev_ins a d c : lev a (d :: c) <= S (lev a c).
Proof. destruct a as [|x a]; [cbn; lia|]. rewrite lev_cons. lia. Qed.
Lemma lev_add x a c : lev a c <= S (lev (x :: a) c).
Proof.
  induction c as [|d c IH]; [rewrite !lev_nil_r; cbn; lia|]. rewrite lev_cons.
  pose proof (lev_ins a d c). lia.
Qed.
Lemma lev_sub x y a c : lev (x :: a) c <= S (lev (y :: a) c).
Proof.
  induction c as [|d c IH]; [rewrite !lev_nil_r; cbn; lia|]. rewrite !lev_cons. pose proof (cst_le x d). lia.
Qed.
Lemma lev_prefix x a b : (forall c, lev a c <= S (lev b c)) -> forall c, lev (x :: a) c <= S (lev (x :: b) c).
Proof.
  intros H. induction c as [|d c IH].
  - specialize (H []). rewrite !lev_nil_r in *. cbn. lia.
  - rewrite !lev_cons. pose proof (H (d :: c)). pose proof (H c). lia.
Qed.
Lemma lev_one a b : one_edit a b -> forall c, lev a c <= S (lev b c).
Proof.
  intros E. destruct E as [pre x post|pre x post|pre x y post]; induction pre as [|z pre IH]; cbn [app];
    try (now apply lev_prefix); intros c; [apply lev_add|apply lev_del|apply lev_sub].
Qed.
Lemma lev_refl a : lev a a = 0.
Proof. induction a as [|x a IH]; [reflexivity|]. rewrite lev_cons, IH, cst_refl. lia. Qed.
Lemma lev_lower n a b : edits n a b -> lev a b <= n.
Proof. induction 1 as [a|n a b c H1 H2 IH]; [rewrite lev_refl; lia|]. pose proof (lev_one a b H1 c). lia. Qed.

Lemma edits_trans {A} n m (a b c : list A) : edits n a b -> edits m b c -> edits (n + m) a c.
Proof. induction 1; intros H'; auto. cbn. econstructor; eauto. Qed.
Lemma edits_cons {A} n x (a b : list A) : edits n a b -> edits n (x :: a) (x :: b).
Proof.
  induction 1 as [|n a b c H1 H2 IH]; [constructor|]. econstructor; [|exact IH].
  inversion H1; subst; rewrite ?app_comm_cons; constructor.
Qed.
Lemma edits_upper a : forall b, edits (lev a b) a b.
Proof.
  induction a as [|c a IHa]; intros b.
  - cbn. induction b as [|d b IH]; cbn; [constructor|].
    apply (edits_S _ [] [d]); [apply (ed_insert [] d [])|]. change (d :: b) with ([d] ++ b). apply edits_cons. exact IH.
  - induction b as [|d b IHb].
    + rewrite lev_nil_r. cbn. econstructor; [apply (ed_delete [] c a)|]. specialize (IHa []). rewrite lev_nil_r in IHa. exact IHa.
    + rewrite lev_cons. 
      assert (H1 : edits (S (lev (c :: a) b)) (c :: a) (d :: b)).
      { apply (edits_S _ _ (d :: c :: a)); [apply (ed_insert [] d)|]. now apply edits_cons. }
      assert (H2 : edits (S (lev a (d :: b))) (c :: a) (d :: b)).
      { apply (edits_S _ _ a); [apply (ed_delete [] c)|]. apply IHa. }
      assert (H3 : edits (lev a b + cst c d) (c :: a) (d :: b)).
      { unfold cst. destruct (Ascii.eqb_spec c d) as [->|].
        - rewrite Nat.add_0_r. now apply edits_cons.
        - rewrite Nat.add_1_r. apply (edits_S _ _ (d :: a)); [apply (ed_subst [] c)|]. now apply edits_cons. }
      destruct (Nat.min_spec (S (lev (c :: a) b)) (S (lev a (d :: b)))) as [[? ->]|[? ->]];
        match goal with |- edits (Nat.min ?x ?y) _ _ => destruct (Nat.min_spec x y) as [[? ->]|[? ->]] end; auto.
Qed.
Lemma lev_spec a b : edit_distance (lev a b) a b.
Proof. split; [apply edits_upper|intros m; apply lev_lower]. Qed.

Lemma one_edit_sym {A} (a b : list A) : one_edit a b -> one_edit b a.
Proof. destruct 1; constructor. Qed.
Lemma edits_sym {A} n (a b : list A) : edits n a b -> edits n b a.
Proof.
  induction 1 as [|n a b c H1 H2 IH]; [constructor|]. replace (S n) with (n + 1) by lia.
  eapply edits_trans; [exact IH|]. econstructor; [now apply one_edit_sym; exact H1|constructor].
Qed.
Lemma one_edit_rev {A} (a b : list A) : one_edit a b -> one_edit (rev a) (rev b).
Proof.
  destruct 1; rewrite !rev_app_distr; cbn [rev]; rewrite <- ?app_assoc; cbn [app].
  - apply (ed_insert (rev post) c (rev pre)).
  - apply (ed_delete (rev post) c (rev pre)).
  - apply (ed_subst (rev post) c d (rev pre)).
Qed.
Lemma edits_rev {A} n (a b : list A) : edits n a b -> edits n (rev a) (rev b).
Proof. induction 1; econstructor; eauto. now apply one_edit_rev. Qed.
Lemma dist_sym {A} n (a b : list A) : edit_distance n a b -> edit_distance n b a.
Proof. intros [H1 H2]. split; [now apply edits_sym|]. intros m Hm. apply H2. now apply edits_sym. Qed.
Lemma dist_rev {A} n (a b : list A) : edit_distance n (rev a) (rev b) -> edit_distance n a b.
Proof.
  intros [H1 H2]. split; [apply edits_rev in H1; now rewrite !rev_involutive in H1|]. intros m Hm. apply H2. now apply edits_rev.
Qed.
Lemma dist_unique {A} n m (a b : list A) : edit_distance n a b -> edit_distance m a b -> n = m.
Proof. intros [H1 H2] [H3 H4]. apply H2 in H3. apply H4 in H1. lia. Qed.

Section M.
Context (norm : ascii -> ascii).
Notation N_ := (map norm).
Lemma cost_cst c d : cost norm c d = cst (norm c) (norm d).
Proof. reflexivity. Qed.

Fixpoint pref (acc s : str) : list str :=
  match s with [] => [] | c :: r => (norm c :: acc) :: pref (norm c :: acc) r end.
Lemma pref_len acc s : List.length (pref acc s) = List.length s.
Proof. revert acc. induction s; intros; cbn; auto. Qed.

Lemma inner_spec d b : forall s1 acc,
  inner norm s1 (map (fun a => lev a b) (pref acc s1)) (lev acc b) (lev acc (norm d :: b)) d =
  map (fun a => lev a (norm d :: b)) (pref acc s1).
Proof.
  induction s1 as [|c s1 IH]; intros acc; [reflexivity|]. cbn [pref map inner].
  assert (E : min3 (lev (norm c :: acc) b + 1) (lev acc (norm d :: b) + 1) (lev acc b + cost norm c d) = lev (norm c :: acc) (norm d :: b)).
  { rewrite min3_min, lev_cons, cost_cst. lia. }
  rewrite E. f_equal. apply IH.
Qed.

Definition col (s1 b : str) : list nat := map (fun a => lev a b) ([] :: pref [] s1).

Lemma outer_spec : forall s2 s1 b, outer norm s1 s2 (S (List.length b)) (col s1 b) = col s1 (rev (N_ s2) ++ b).
Proof.
  induction s2 as [|d s2 IH]; intros s1 b; [reflexivity|]. cbn [outer map rev].
  rewrite <- app_assoc. cbn [app].
  replace (S (List.length b) :: inner norm s1 (tl (col s1 b)) (S (List.length b) - 1) (S (List.length b)) d) with (col s1 (norm d :: b)).
  - rewrite <- (IH s1 (norm d :: b)). cbn [List.length]. f_equal. lia.
  - unfold col. cbn [map tl lev]. f_equal. cbn [List.length Nat.sub]. rewrite Nat.sub_0_r.
    rewrite <- (inner_spec d b s1 []). reflexivity.
Qed.
Lemma init_col s1 : 0 :: seq 1 (List.length s1) = col s1 [].
Proof.
  unfold col. cbn [map lev List.length]. f_equal.
  assert (H : forall s acc, map (fun a => lev a []) (pref acc s) = seq (S (List.length acc)) (List.length s)).
  { induction s as [|c s IH]; intros acc; [reflexivity|]. cbn [pref map List.length seq]. rewrite lev_nil_r. cbn [List.length]. f_equal. apply (IH (norm c :: acc)). }
  symmetry. apply (H s1 []).
Qed.
Lemma last_col s1 b : nth (List.length s1) (col s1 b) 0 = lev (rev (N_ s1)) b.
Proof.
  unfold col. 
  assert (H : forall s acc, nth (List.length s) (map (fun a => lev a b) (acc :: pref acc s)) 0 = lev (rev (N_ s) ++ acc) b).
  { induction s as [|c s IH]; intros acc; [reflexivity|]. change (nth (List.length s) (map (fun a => lev a b) ((norm c :: acc) :: pref (norm c :: acc) s)) 0 = lev (rev (N_ (c :: s)) ++ acc) b).
    rewrite IH. cbn [rev map]. now rewrite <- app_assoc. }
  etransitivity; [apply (H s1 [])|]. now rewrite app_nil_r.
Qed.

Lemma distance_spec a b : Nat.min (List.length a) (List.length b) < capacity ->
  edit_distance (distance norm a b) (N_ a) (N_ b).
Proof.
  intros HC. unfold distance.
  destruct (Nat.eqb_spec (List.length a) 0) as [EA|EA].
  { destruct a; [|discriminate]. pose proof (lev_spec [] (N_ b)) as Q. cbn in Q. now rewrite map_length in Q. }
  destruct (Nat.eqb_spec (List.length b) 0) as [EB|EB].
  { destruct b; [|discriminate]. pose proof (lev_spec (N_ a) []) as Q. rewrite lev_nil_r in Q. now rewrite map_length in Q. }
  assert (G : forall s1 s2, List.length s1 < capacity -> edit_distance (nth (List.length s1) (outer norm s1 s2 1 (0 :: seq 1 (List.length s1))) 0) (N_ s1) (N_ s2)).
  { intros s1 s2 _. rewrite init_col. change 1 with (S (List.length (@nil ascii))). rewrite outer_spec, last_col, app_nil_r.
    apply dist_rev. apply lev_spec. }
  destruct (Nat.ltb_spec (List.length b) (List.length a)).
  - destruct (Nat.leb_spec capacity (List.length b)); [lia|]. apply dist_sym. now apply G.
  - destruct (Nat.leb_spec capacity (List.length a)); [lia|]. now apply G.
Qed.
End M.
