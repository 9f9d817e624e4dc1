(** More proofs about scopes. *)
From Coq Require Import List Arith NArith ZArith Bool Ascii Lia.
Import ListNotations.
Require Import Verif.M_Path Verif.M_Scope Verif.S_Scope Verif.P_Scope.
Open Scope nat_scope.

(** * Finding and the specification *)
Lemma has_find : forall n f v, local n f = Some v <-> has f n v.
Proof.
  intros n f v. unfold local, has. split.
  - induction (vars f) as [|u l IH]; cbn; [discriminate|]. destruct (same n (vname u)) eqn:E.
    + intros H. injection H as ->. apply same_iff in E. split; [congruence|]. exists [], l. split; [reflexivity|]. intros w [].
    + intros H. destruct (IH H) as [E1 [a [b [E2 E3]]]]. split; [exact E1|]. exists (u :: a), b. rewrite E2. split; [reflexivity|].
      intros w [<-|K]; [|auto]. apply same_no in E. congruence.
  - intros [Nm [a [b [E K]]]]. rewrite E. clear E. induction a as [|u a IH]; cbn.
    + subst n. now rewrite same_refl.
    + destruct (same n (vname u)) eqn:Es.
      * apply same_iff in Es. exfalso. apply (K u); [now left|congruence].
      * apply IH. intros w Hw. apply K. now right.
Qed.
Lemma find_declares : forall n f v, local n f = Some v -> declares f n (val v).
Proof. intros n f v H. exists v. split; [now apply has_find|reflexivity]. Qed.
Lemma declares_find : forall n f x, declares f n x -> exists v, local n f = Some v /\ val v = x.
Proof. intros n f x [v [H V]]. exists v. split; [now apply has_find|exact V]. Qed.
Lemma silent_find : forall n f, silent f n <-> local n f = None.
Proof.
  intros n f. unfold silent, local. split.
  - intros H. induction (vars f) as [|u l IH]; [reflexivity|]. cbn. assert (K := H u (or_introl eq_refl)).
    destruct (same n (vname u)) eqn:E; [apply same_iff in E; congruence|]. apply IH. intros v Hv. apply H. now right.
  - intros H v Hv E. assert (K := find_none _ _ H v Hv). cbn in K. apply same_no in K. congruence.
Qed.
Lemma sees_lookup : forall st n x, sees st n x <-> exists i v, lookup n st = Some (i, v) /\ val v = x.
Proof.
  intros st n x. split.
  - intros H. induction H as [f st n x H|f st n x H K IH]; cbn [lookup].
    + apply declares_find in H as [v [-> V]]. eauto.
    + apply silent_find in H. rewrite H. destruct IH as [i [v [-> V]]]. eauto.
  - induction st as [|f st IH]; cbn [lookup]; intros [i [v [H V]]]; [discriminate|].
    destruct (local n f) as [u|] eqn:E.
    + injection H as <- ->. apply sees_here. rewrite <- V. now apply find_declares.
    + destruct (lookup n st) as [[j u]|] eqn:E2; [|discriminate]. injection H as <- ->. apply sees_out; [now apply silent_find|]. apply IH. eauto.
Qed.
Lemma sees_get : forall st n x, sees st n x <-> old_value n None st = Some x.
Proof.
  intros st n x. rewrite sees_lookup. unfold old_value. cbn [get_var]. destruct (lookup n st) as [[i v]|].
  - split; [intros [j [u [E V]]]; injection E as <- <-; congruence|]. intros H. injection H as <-. eauto.
  - split; [intros [j [u [E V]]]; discriminate|discriminate].
Qed.
Lemma sees_one : forall st n x y, sees st n x -> sees st n y -> x = y.
Proof. intros st n x y H K. apply sees_get in H, K. congruence. Qed.
Lemma unknown_lookup : forall st n, unknown st n <-> lookup n st = None.
Proof.
  intros st n. unfold unknown. induction st as [|f st IH]; cbn [lookup]; [split; [reflexivity|intros _ f []]|]. split.
  - intros H. assert (Hf : silent f n) by (apply H; now left). apply silent_find in Hf. rewrite Hf.
    destruct (lookup n st) as [[j u]|] eqn:E; [|reflexivity]. exfalso. assert (X : Some (j, u) = None); [|discriminate]. apply IH. intros g Hg. apply H. now right.
  - intros H g. destruct (local n f) eqn:E; [discriminate|]. destruct (lookup n st) as [[j u]|]; [discriminate|].
    intros [<-|K]; [now apply silent_find|]. apply IH; auto.
Qed.
Lemma lookup_fresh : forall n st, lookup n (fresh :: st) = shift 1 (lookup n st).
Proof. intros n st. cbn. destruct (lookup n st) as [[i v]|]; reflexivity. Qed.

Lemma proper_good : forall st, proper st <-> good true 255 st.
Proof.
  intros [|f t]; [reflexivity|]. cbn [proper good]. unfold counts, last_ok. split.
  - intros [H1 [H2 H3]]. split; [|split].
    + apply Forall_forall. intros v Hv. rewrite (H1 v Hv). lia.
    + apply Forall_forall. intros g Hg. apply Forall_forall. intros v Hv. eauto.
    + destruct (last f) as [[n [i|]]|] eqn:E; auto. split; [reflexivity|]. destruct (H3 n i eq_refl) as [j [g [v [-> [N [D Z]]]]]].
      exists j, g, v. repeat split; auto. now apply has_find.
  - intros [H1 [H2 H3]]. rewrite Forall_forall in H1, H2. split; [|split].
    + intros v Hv. specialize (H1 v Hv). cbn in H1. lia.
    + intros g v Hg Hv. specialize (H2 g Hg). rewrite Forall_forall in H2. now apply H2.
    + intros n i E. rewrite E in H3. destruct H3 as [_ [j [g [v [-> [N [Lo Z]]]]]]]. exists j, g, v. apply has_find in Lo. auto.
Qed.
Lemma calm_counts : forall r st, calm r st <-> Forall (counts (bnd true r)) st.
Proof.
  intros r st. unfold calm, counts, bnd. rewrite Forall_forall. split.
  - intros H g Hg. apply Forall_forall. intros v Hv. exact (H g v Hg Hv).
  - intros H g v Hg Hv. specialize (H g Hg). rewrite Forall_forall in H. exact (H v Hv).
Qed.

(** * What is printed before does not matter *)
Definition pre (o : list event) (s : state) : state := {| stack := stack s; funs := funs s; out := o ++ out s |}.
Definition rmap {A B} (f : A -> B) (x : res A) : res B := match x with Good a => Good (f a) | Fail c => Fail c | Undef u => Undef u end.
Lemma bind_rmap : forall A B C (x : res A) (f : A -> res B) (g : B -> C), rmap g (bind x f) = bind x (fun a => rmap g (f a)).
Proof. intros A B C [a|c|u] f g; reflexivity. Qed.
Lemma bind_ext : forall A B (x : res A) (f g : A -> res B), (forall a, f a = g a) -> bind x f = bind x g.
Proof. intros A B [a|c|u] f g H; cbn; auto. Qed.
Lemma rmap_bind : forall A B C (x : res A) (g : A -> B) (f : B -> res C), bind (rmap g x) f = bind x (fun a => f (g a)).
Proof. intros A B C [a|c|u] f g; reflexivity. Qed.
Definition blind (o : list event) (body : list stmt -> state -> res state) : Prop := forall b s, body b (pre o s) = rmap (pre o) (body b s).
Lemma blind_iterate : forall o (body : list stmt -> state -> res state) b h n i s, (forall s, body b (pre o s) = rmap (pre o) (body b s)) ->
  iterate (body b) h n i (pre o s) = rmap (pre o) (iterate (body b) h n i s).
Proof.
  intros o body b h n. induction n as [|n IH]; intros i s H; cbn [iterate]; [reflexivity|].
  rewrite bind_rmap. apply bind_ext. intros f. change (with_stack (f :: stack (pre o s)) (pre o s)) with (pre o (with_stack (f :: stack s) s)).
  rewrite H, rmap_bind, bind_rmap. apply bind_ext. intros s1. change (pop (pre o s1)) with (pre o (pop s1)). now apply IH.
Qed.
Lemma blind_declare : forall o body n d p r s, blind o body -> declare body n d p r (pre o s) = rmap (pre o) (declare body n d p r s).
Proof.
  intros o body n d p r s H. destruct r; cbn [declare]; change (stack (pre o s)) with (stack s).
  - rewrite bind_rmap. apply bind_ext. intros x. rewrite bind_rmap. reflexivity.
  - rewrite bind_rmap. reflexivity.
  - rewrite bind_rmap. reflexivity.
  - rewrite bind_rmap. apply bind_ext. intros x. destruct (if parent then _ else _) as [[i v]|]; [|reflexivity]. rewrite bind_rmap. reflexivity.
  - rewrite bind_rmap. reflexivity.
  - destruct p; try reflexivity. destruct (match old_value n d (stack s) with None => true | Some (VStruct _) => true | _ => false end); [|reflexivity].
    change (with_stack (fresh :: stack s) (pre o s)) with (pre o (with_stack (fresh :: stack s) s)).
    rewrite H, rmap_bind, bind_rmap. apply bind_ext. intros s1. change (stack (pre o s1)) with (stack s1).
    destruct (stack s1) as [|top rest]; [reflexivity|]. destruct (nth_error rest (at_ d)) as [f|]; [|reflexivity].
    destruct (local n f) as [[vn [] vf]|]; reflexivity.
Qed.
Lemma blind_step : forall o body1 body2 x s, blind o body1 -> blind o body2 -> step body1 body2 x (pre o s) = rmap (pre o) (step body1 body2 x s).
Proof.
  intros o body1 body2 x s H1 H2. destruct x; cbn [step]; change (stack (pre o s)) with (stack s); change (funs (pre o s)) with (funs s).
  - rewrite bind_rmap. apply bind_ext. intros m. destruct parent.
    + destruct (parent_decl m (stack s)) as [[i v]|]; [|reflexivity]. destruct (0 <? frozen v)%N; [reflexivity|].
      exact (blind_declare o body1 m (Some i) o0 r (with_stack (note m (Some i) (stack s)) s) H1).
    + exact (blind_declare o body1 m None o0 r (with_stack (note m None (stack s)) s) H1).
  - destruct (stack s) as [|[vs [[m d]|]] t]; try reflexivity. now apply blind_declare.
  - change (with_stack (fresh :: stack s) (pre o s)) with (pre o (with_stack (fresh :: stack s) s)). rewrite H1, rmap_bind, bind_rmap. reflexivity.
  - rewrite bind_rmap. apply bind_ext. intros m. destruct (if parent then _ else _) as [[i v]|]; [|reflexivity]. cbn [rmap]. unfold say, pre. cbn. now rewrite app_assoc.
  - rewrite bind_rmap. apply bind_ext. intros m. cbn [rmap]. unfold say, pre. cbn. now rewrite app_assoc.
  - rewrite bind_rmap. apply bind_ext. intros m. destruct (lookup m (fresh :: stack s)) as [[i v]|]; [|reflexivity]. destruct (val v); try reflexivity.
    destruct (xorb negated b0); [|reflexivity]. change (with_stack (fresh :: stack s) (pre o s)) with (pre o (with_stack (fresh :: stack s) s)).
    rewrite H1, rmap_bind, bind_rmap. reflexivity.
  - rewrite bind_rmap. apply bind_ext. intros p. destruct (snd p) as [[|len]|]; try reflexivity.
    set (fz := fold_left _ _ _). change (with_stack fz (pre o s)) with (pre o (with_stack fz s)).
    rewrite blind_iterate by (intros; apply H2). rewrite rmap_bind, bind_rmap. reflexivity.
  - rewrite bind_rmap. apply bind_ext. intros m. destruct (if parent then _ else _) as [[i v]|]; [|reflexivity]. destruct (val v); reflexivity.
  - change (with_stack (fresh :: stack s) (pre o s)) with (pre o (with_stack (fresh :: stack s) s)). rewrite H1, rmap_bind, bind_rmap. apply bind_ext. intros s1.
    cbn [rmap]. unfold pop, say, pre, with_stack. cbn. now rewrite app_assoc.
  - destruct (assoc f (funs s)); [reflexivity|]. destruct (distinct params); reflexivity.
  - destruct (assoc f (funs s)) as [[ps b]|]; [|reflexivity]. destruct (length args =? length ps); [|reflexivity].
    rewrite bind_rmap. apply bind_ext. intros top. change (with_stack [top] (pre o s)) with (pre o (with_stack [top] s)).
    rewrite H1, rmap_bind, bind_rmap. reflexivity.
Qed.
Lemma blind_parse : forall o r, blind o (parse r).
Proof.
  intros o r. assert (X : blind o (parse r) /\ blind o (parse (pred r))); [|apply X]. induction r as [|r [IH1 IH2]]; [split; intros b s; reflexivity|].
  split; [|exact IH1]. intros b. induction b as [|x l IHl]; intros s.
  - rewrite !parse_nil. reflexivity.
  - rewrite !parse_cons, blind_step by assumption. rewrite rmap_bind, bind_rmap. apply bind_ext. intros s1. apply IHl.
Qed.

(** * The same names seen, the same values *)
Definition view (st1 st2 : list frame) : Prop := forall n, old_value n None st1 = old_value n None st2.
Lemma view_sees : forall st1 st2, (forall n x, sees st1 n x <-> sees st2 n x) <-> view st1 st2.
Proof.
  intros st1 st2. unfold view. split.
  - intros H n. destruct (old_value n None st1) as [x|] eqn:E1.
    + symmetry. apply sees_get, H, sees_get, E1.
    + destruct (old_value n None st2) as [x|] eqn:E2; [|reflexivity]. apply sees_get, H, sees_get in E2. congruence.
  - intros H n x. now rewrite !sees_get, H.
Qed.
Lemma view_cons : forall f st1 st2, view st1 st2 -> view (f :: st1) (f :: st2).
Proof.
  intros f st1 st2 H n. specialize (H n). unfold old_value in *. cbn [get_var lookup] in *. destruct (local n f); [reflexivity|].
  destruct (lookup n st1) as [[i v]|], (lookup n st2) as [[j u]|]; exact H.
Qed.
Lemma view_subst : forall st1 st2 s m, view st1 st2 -> subst_from st1 m s = subst_from st2 m s.
Proof.
  intros st1 st2 s m H. revert m. induction s as [|c s IH]; intros m; cbn [subst_from]; [reflexivity|].
  destruct m as [| |n]; [rewrite !IH; reflexivity|rewrite !IH; reflexivity|]. destruct (Ascii.eqb c "$"); [|apply IH]. destruct n as [|d n]; [reflexivity|].
  specialize (H (rev (d :: n))). unfold old_value in H.
  destruct (get_var (rev (d :: n)) None st1) as [v|], (get_var (rev (d :: n)) None st2) as [u|]; try discriminate; [|reflexivity].
  injection H as ->. destruct (val u); try reflexivity; now rewrite IH.
Qed.
Lemma view_name : forall st1 st2 n, view st1 st2 -> var_name st1 n = var_name st2 n.
Proof. intros st1 st2 [n|raw] H; [reflexivity|now apply view_subst]. Qed.
Lemma source_view : forall st n, source st false n = old_value n None st.
Proof. intros st n. unfold source, old_value. cbn [get_var]. destruct (lookup n st) as [[i v]|]; reflexivity. Qed.
Lemma view_args : forall ps args f st1 st2, view st1 st2 -> Forall near args -> arguments ps args f st1 = arguments ps args f st2.
Proof.
  induction ps as [|p ps IH]; intros [|a args] f st1 st2 H Nr; cbn [arguments]; try reflexivity. inversion Nr; subst.
  assert (V := view_cons f _ _ H).
  assert (E : forall v, arguments ps args (put_frame p v f) st1 = arguments ps args (put_frame p v f) st2) by (intros; now apply IH).
  destruct a as [raw|z|b|pa n]; cbn [bind].
  - unfold subst. rewrite (view_subst _ _ raw Plain V). apply bind_ext. exact E.
  - apply E.
  - apply E.
  - destruct pa; [contradiction|]. rewrite (view_name _ _ n V). destruct (var_name (f :: st2) n) as [m|c|u]; try reflexivity. cbn [bind].
    rewrite !source_view, (V m). apply bind_ext. exact E.
Qed.

(** * Literal texts *)
Lemma subst_literal : forall st s, literal s -> subst st s = Good s.
Proof.
  intros st s. unfold subst. induction s as [|c s IH]; intros H; cbn [subst_from]; [reflexivity|].
  destruct (H c (or_introl eq_refl)) as [H1 H2].
  destruct (Ascii.eqb_spec c "^"); [contradiction|]. destruct (Ascii.eqb_spec c "$"); [contradiction|].
  rewrite IH; [reflexivity|]. intros d Hd. apply H. now right.
Qed.

(** * Setting *)
Lemma local_put_same : forall n x f, exists v, local n (put_frame n x f) = Some v /\ val v = x.
Proof.
  intros n x f. unfold local. cbn [put_frame vars]. induction (vars f) as [|v l IH]; cbn [put_var find].
  - exists {| vname := n; val := x; frozen := 0 |}. cbn. now rewrite same_refl.
  - destruct (same n (vname v)) eqn:E; cbn [find vname]; rewrite E; [eexists; split; reflexivity|exact IH].
Qed.
Lemma local_put_other : forall n m x f, m <> n -> local m (put_frame n x f) = local m f.
Proof.
  intros n m x f H. unfold local. cbn [put_frame vars]. induction (vars f) as [|v l IH]; cbn [put_var find].
  - cbn. destruct (same m n) eqn:E; [apply same_iff in E; contradiction|reflexivity].
  - destruct (same n (vname v)) eqn:E; cbn [find vname].
    + apply same_iff in E. destruct (same m (vname v)) eqn:E2; [apply same_iff in E2; congruence|reflexivity].
    + destruct (same m (vname v)); [reflexivity|exact IH].
Qed.
Lemma local_swap_same : forall n x f, exists v, local n (swap_frame n x f) = Some v /\ val v = x.
Proof.
  intros n x f. unfold local. cbn [swap_frame vars]. induction (vars f) as [|v l IH]; cbn [swap_var find].
  - exists {| vname := n; val := x; frozen := 0 |}. cbn. now rewrite same_refl.
  - destruct (same n (vname v)) eqn:E; cbn [find vname]; rewrite ?same_refl, ?E; [eexists; split; reflexivity|exact IH].
Qed.
Lemma local_swap_other : forall n m x f, m <> n -> local m (swap_frame n x f) = local m f.
Proof.
  intros n m x f H. unfold local. cbn [swap_frame vars]. induction (vars f) as [|v l IH]; cbn [swap_var find].
  - cbn. destruct (same m n) eqn:E; [apply same_iff in E; contradiction|reflexivity].
  - destruct (same n (vname v)) eqn:E; cbn [find vname].
    + apply same_iff in E. subst n. destruct (same m (vname v)) eqn:E2; [apply same_iff in E2; congruence|reflexivity].
    + destruct (same m (vname v)); [reflexivity|exact IH].
Qed.

(** * One array *)
Lemma iterate_passes : forall c B2 body b x k a arr n i s s',
  Pb c true B2 body -> (c = false -> no_caret b = true) -> (four b = true /\ four_all s) -> Forall (counts B2) (stack s) ->
  (exists v, get_var a (Some k) (stack s) = Some v /\ frozen v <> 0%N /\ val v = arr) ->
  iterate (body b) [(x, (k, a))] n i s = Good s' ->
  passes (body b) x (firstn n (skipn i (elements_of arr))) s s'.
Proof.
  intros c B2 body b x k a arr n. induction n as [|n IH]; intros i s s' P Hc Hw C [v [G [F V]]] H; cbn [iterate] in H.
  - injection H as <-. cbn. constructor.
  - cbn [loop_vars] in H. rewrite G, V in H. apply bind_good in H as [f [Hf H]]. apply bind_good in Hf as [e [He Hf]]. injection Hf as <-.
    apply bind_good in H as [s1 [H1 H2]].
    assert (Hel : skipn i (elements_of arr) = e :: skipn (S i) (elements_of arr)).
    { destruct arr; try discriminate; cbn [item elements_of] in *; destruct (nth_error l i) as [y|] eqn:En; try discriminate; injection He as <-;
        clear -En; revert i En; induction l as [|z l IHl]; intros [|i] En; try discriminate; cbn [nth_error] in En; try (injection En as ->; reflexivity);
        exact (IHl i En). }
    rewrite Hel. cbn [firstn]. apply one_pass with s1; [exact H1|].
    assert (Q := P b (with_stack (put_frame x e fresh :: stack s) s) Hc (fun _ => Hw)).
    rewrite H1 in Q. destruct Q as [Q1 [Q2 Q3]].
    + split; [apply put_frame_zero; constructor|]. split; [exact C|exact I].
    + cbn [stack with_stack tl] in Q2. apply IH; auto.
      * split; [apply Hw|]. exact (Q3 eq_refl).
      * eapply all_counts_kept; eauto.
      * destruct (get_kept _ _ _ _ _ _ _ Q2 G) as [v' [G' [K1 [K2 [K3 K4]]]]]. exists v'. split; [exact G'|]. rewrite K2, K4; auto.
Qed.
Lemma elements_len : forall x k, array_len x = Some k -> length (elements_of x) = k.
Proof. intros x k H. destruct x; cbn in *; try discriminate; injection H as <-; apply map_length. Qed.

(** Freezing changes no value. *)
Lemma view_refreeze : forall k p st, view (refreeze k p st) st.
Proof.
  intros k p st n. unfold old_value. cbn [get_var]. rewrite refreeze_eq. destruct p as [i m]. cbn [fst snd]. revert i.
  induction st as [|f st IH]; intros i; [destruct i; reflexivity|]. destruct i as [|i]; cbn [upd_nth lookup].
  - rewrite local_rf. destruct (local n f) as [v|]; [|destruct (lookup n st) as [[j u]|]; reflexivity]. destruct (same n m); reflexivity.
  - destruct (local n f); [reflexivity|]. specialize (IH i). destruct (lookup n (upd_nth i (rf k m) st)) as [[j u]|], (lookup n st) as [[j2 u2]|]; exact IH.
Qed.
Lemma view_trans : forall a b c, view a b -> view b c -> view a c.
Proof. intros a b c H K n. now rewrite H. Qed.
Lemma view_sym : forall a b, view a b -> view b a.
Proof. intros a b H n. now rewrite H. Qed.
Lemma view_fold : forall k (l : list (str * (nat * str))) st, view (fold_left (fun st q => refreeze k (snd q) st) l st) st.
Proof.
  intros k l. induction l as [|q l IH]; intros st; cbn [fold_left]; [intros n; reflexivity|].
  eapply view_trans; [apply IH|apply view_refreeze].
Qed.
