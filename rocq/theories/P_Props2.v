(** Proofs: the strings of properties. *)
From Coq Require Import String List Arith Bool Ascii ZArith Lia.
From Verif Require Import M_Path M_Names M_Dir M_Props S_Props P_Props.
Import ListNotations.
Open Scope list_scope.

Lemma all_of_iff {A B} (f : A -> option (list B)) l : forall r,
  all_of f l = Some r <-> exists rs, Forall2 (fun x y => f x = Some y) l rs /\ r = concat rs.
Proof.
  induction l as [|x l IH]; intro r; cbn [all_of].
  - split.
    + intro H. injection H as <-. exists []. auto.
    + intros (rs & F & ->). inversion F. reflexivity.
  - split.
    + intro H. destruct (f x) as [a|] eqn:E; [ | discriminate ]. destruct (all_of f l) as [b|]; [ | discriminate ].
      injection H as <-. destruct (proj1 (IH b) eq_refl) as (rs & F & ->). exists (a :: rs). auto.
    + intros (rs & F & ->). inversion F as [|? y ? ys HD TL]; subst. rewrite HD.
      rewrite (proj2 (IH (concat ys))); [ reflexivity | ]. eauto.
Qed.
Lemma Forall2_concat {A B} (P : A -> B -> Prop) (ls : list (list A)) rs : Forall2 (Forall2 P) ls rs -> Forall2 P (concat ls) (concat rs).
Proof. induction 1; cbn [concat]; [ constructor | now apply Forall2_app ]. Qed.
Lemma Forall2_split {A B} (P : A -> B -> Prop) (ls : list (list A)) : forall r, Forall2 P (concat ls) r ->
  exists rs, r = concat rs /\ Forall2 (Forall2 P) ls rs.
Proof.
  induction ls as [|l ls IH]; cbn [concat]; intros r H.
  - inversion H. exists []. auto.
  - apply Forall2_app_inv_l in H. destruct H as (r1 & r2 & H1 & H2 & ->).
    destruct (IH _ H2) as (rs & -> & F). exists (r1 :: rs). auto.
Qed.

Section Cleaner.
Context (p : plat) (cp : str -> str).

Lemma strings_S f g m s : s <> [] -> file m = Some false -> strings p cp (S f) g m s =
  match find_node cp g s with
  | None => match fix_path p cp m s with Some r => Some [r] | None => None end
  | Some k =>
      match nth_error g k with
      | None => None
      | Some n =>
          if nty_eqb (ntype n) TyAlias then
            all_of (fun t => match nth_error g t with Some x => strings p cp f g m (nname x) | None => None end) (aliased n)
          else if is_file n then match fix_path p cp m s with Some r => Some [r] | None => None end
          else match nonfile m with
               | None => None
               | Some None => Some [s]
               | Some (Some ty) => if nty_eqb ty (ntype n) then Some [s] else None
               end
      end
  end.
Proof. intros N F. cbn [strings]. rewrite F. destruct s; [ congruence | reflexivity ]. Qed.
Lemma no_path m s : file m = Some false -> path m = None ->
  forall t, fix_path p cp m s = Some t <-> t = cp s /\ is_folder p t = false.
Proof.
  intros F P t. rewrite fix_path_is. unfold written, as_folder, as_file. rewrite F, P. split.
  - intros (u & -> & H). exact H.
  - intro H. exists s. auto.
Qed.
(** A target that is no alias, under a name. *)
Lemma own_text m n s l : file m = Some false -> path m = None ->
  (if is_file n then match fix_path p cp m s with Some r => Some [r] | None => None end
   else match nonfile m with
        | None => None
        | Some None => Some [s]
        | Some (Some ty) => if nty_eqb ty (ntype n) then Some [s] else None
        end) = Some l <-> exists t, text_for p cp m n s t /\ l = [t].
Proof.
  intros F P. unfold text_for. destruct (is_file n) eqn:E; split.
  - destruct (fix_path p cp m s) as [t|] eqn:X; [ | discriminate ]. intro H. injection H as <-.
    apply (no_path m s F P) in X. exists t. auto.
  - intros (t & [[_ X]|[X _]] & ->); [ | discriminate ]. apply (no_path m s F P) in X. now rewrite X.
  - destruct (nonfile m) as [[ty|]|] eqn:X; [ | | discriminate ].
    + destruct (nty_eqb ty (ntype n)) eqn:Y; [ | discriminate ]. apply nty_iff in Y. subst ty.
      intro H. injection H as <-. exists s. auto 10.
    + intro H. injection H as <-. exists s. auto 10.
  - intros (t & [[X _]|(_ & -> & X)] & ->); [ discriminate | ].
    destruct X as [-> | ->]; [ reflexivity | ]. now rewrite (proj2 (nty_iff _ _) eq_refl).
Qed.

Lemma strings_node g m : healthy g -> file m = Some false -> path m = None -> forall f k n l, nth_error g k = Some n ->
  1 <= f -> (ntype n = TyAlias -> k + 2 <= f) ->
  (strings p cp f g m (nname n) = Some l <-> exists ls, stands_for g k ls /\ Forall2 (target_text p cp g m) ls l).
Proof.
  intros HG F P. pose proof (healthy_uniq g HG) as U. pose proof HG as [_ _ AN AB]. induction f as [|f IH]; intros k n l N L A; [ lia | ].
  destruct (list_eq_dec ascii_dec (nname n) []) as [E|E].
  - assert (T : ntype n <> TyAlias). { intro T. exact (AN k n N T E). }
    rewrite E. cbn [strings]. split.
    + intro H. injection H as <-. exists [k]. split; [ eapply stands_self; eauto | ].
      constructor; [ | constructor ]. exists n. auto.
    + intros (ls & H & G). inversion H; subst; [ | congruence ]. inversion G as [|? t ? ? (n' & N' & X) Y]; subst.
      inversion Y; subst. replace n' with n in * by congruence. destruct X as [[_ ->]|[X _]]; [ reflexivity | congruence ].
  - rewrite (strings_S f g m (nname n) E F), (find_own cp g k n U N), N.
    destruct (nty_eqb (ntype n) TyAlias) eqn:T.
    + apply nty_iff in T. rewrite all_of_iff.
      assert (K : forall t, In t (aliased n) -> forall y,
                (match nth_error g t with Some x => strings p cp f g m (nname x) | None => None end = Some y <->
                 exists ls, stands_for g t ls /\ Forall2 (target_text p cp g m) ls y)).
      { intros t I y. destruct (AB k n t N T I) as (x & X & Y). rewrite X. apply IH; [ exact X | | ].
        - specialize (A T). lia.
        - intro Z. specialize (Y Z). specialize (A T). lia. }
      split.
      * intros (rs & G & ->).
        assert (X : exists lss, Forall2 (stands_for g) (aliased n) lss /\ Forall2 (Forall2 (target_text p cp g m)) lss rs).
        { clear N T A E AB IH. induction G as [|t r ts rs HD G IHG]; [ exists []; auto | ].
          destruct IHG as (lss & X & Y); [ intros t' I; apply K; now right | ].
          apply (K t (or_introl eq_refl)) in HD. destruct HD as (ls & H1 & H2). exists (ls :: lss). auto. }
        destruct X as (lss & X & Y). exists (concat lss). split; [ eapply stands_alias; eauto | now apply Forall2_concat ].
      * intros (ls & H & G). inversion H; subst; [ congruence | ]. replace n0 with n in * by congruence.
        apply Forall2_split in G. destruct G as (rs & -> & G). exists rs. split; [ | reflexivity ].
        rename H2 into X. clear H H0 H1 N T A E AB IH. revert ls0 rs X G. induction (aliased n) as [|t ts IHt]; intros ls0 rs X G.
        -- inversion X; subst. inversion G. constructor.
        -- inversion X; subst. inversion G; subst. constructor.
           ++ apply (K t (or_introl eq_refl)). eauto.
           ++ eapply IHt; eauto. intros t' I. apply K. now right.
    + apply nty_no in T. rewrite (own_text m n (nname n) l F P). split.
      * intros (t & X & ->). exists [k]. split; [ eapply stands_self; eauto | ]. constructor; [ | constructor ].
        exists n. auto.
      * intros (ls & H & G). inversion H; subst; [ | congruence ]. inversion G as [|? t ? ? (n' & N' & X) Y]; subst.
        inversion Y; subst. replace n' with n in * by congruence. destruct X as [[X _]|[_ X]]; [ congruence | eauto ].
Qed.

Lemma strings_gives g m s l : healthy g ->
  (strings p cp (S (S (List.length g))) g m s = Some l <-> gives p cp g m s l).
Proof.
  intros HG. pose proof (healthy_uniq g HG) as U.
  assert (FP : file m = None \/ path m = None) by (unfold file, path; destruct (kind m); auto). unfold gives.
  destruct (list_eq_dec ascii_dec s []) as [E|E].
  { subst s. cbn [strings]. split.
    - intro H. injection H as <-. auto.
    - intros [[_ ->]|[[X _]|[[X _]|[X _]]]]; try reflexivity; destruct X; reflexivity. }
  assert (PL : (match fix_path p cp m s with Some r => Some [r] | None => None end) = Some l <->
               exists t, written p cp m s t /\ l = [t]).
  { split.
    - destruct (fix_path p cp m s) as [t|] eqn:X; [ | discriminate ]. intro H. injection H as <-.
      exists t. split; [ now apply fix_path_is | reflexivity ].
    - intros (t & X & ->). apply fix_path_is in X. now rewrite X. }
  destruct (match file m with Some b => b | None => true end) eqn:FM.
  { assert (NF : file m <> Some false) by (destruct (file m) as [[|]|]; congruence).
    assert (EQ : strings p cp (S (S (List.length g))) g m s =
                 match fix_path p cp m s with Some r => Some [r] | None => None end).
    { cbn [strings]. destruct s; [ congruence | ]. destruct (file m) as [[|]|]; congruence. }
    rewrite EQ, PL. split; [ auto 10 | ]. intros [[X _]|[(_ & _ & X)|[(_ & X & _)|(_ & X & _)]]]; congruence || auto. }
  assert (F : file m = Some false) by (destruct (file m) as [[|]|]; congruence).
  assert (P : path m = None) by (destruct FP; congruence).
  rewrite (strings_S _ g m s E F). destruct (find_node cp g s) as [k|] eqn:FN.
  - pose proof (find_bound _ _ _ _ FN) as KB. pose proof FN as FC. apply (find_some cp g s k U) in FC.
    destruct (nth_error g k) as [n|] eqn:N; [ | apply nth_error_None in N; lia ].
    assert (R : forall k' n', called cp g s k' -> nth_error g k' = Some n' -> k' = k /\ n' = n).
    { intros k' n' C N'. apply (find_some cp g s k' U) in C. assert (k' = k) by congruence. subst. split; congruence. }
    destruct (nty_eqb (ntype n) TyAlias) eqn:T.
    + apply nty_iff in T.
      assert (X := strings_node g m HG F P (S (S (List.length g))) k n l N ltac:(lia) ltac:(lia)).
      assert (NE : nname n <> []) by (destruct HG; eauto).
      rewrite (strings_S _ g m (nname n) NE F), (find_own cp g k n U N), N, (proj2 (nty_iff _ _) T) in X.
      rewrite X. split.
      * intros (ls & Y). right. right. right. split; [ exact E | ]. split; [ exact F | ]. exists k, n. eauto 10.
      * intros [[Y _]|[(_ & Y & _)|[(_ & _ & Y & _)|(_ & _ & k' & n' & C & N' & Y)]]]; try congruence.
        -- destruct (Y k FC).
        -- destruct (R k' n' C N') as [-> ->]. destruct Y as [[Y _]|[_ Y]]; [ congruence | exact Y ].
    + apply nty_no in T. rewrite (own_text m n s l F P). split.
      * intro Y. right. right. right. split; [ exact E | ]. split; [ exact F | ]. exists k, n. auto.
      * intros [[Y _]|[(_ & Y & _)|[(_ & _ & Y & _)|(_ & _ & k' & n' & C & N' & Y)]]]; try congruence.
        -- destruct (Y k FC).
        -- destruct (R k' n' C N') as [-> ->]. destruct Y as [[_ Y]|[Y _]]; [ exact Y | congruence ].
  - pose proof (proj1 (find_none cp g s U) FN) as NC. rewrite PL. split.
    + intro Y. right. right. left. auto.
    + intros [[Y _]|[(_ & Y & _)|[(_ & _ & _ & Y)|(_ & _ & k' & n' & C & _)]]]; try congruence; auto.
      destruct (NC k' C).
Qed.
End Cleaner.
