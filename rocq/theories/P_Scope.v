(** Proofs about scopes. *)
From Coq Require Import List Arith NArith ZArith Bool Ascii Lia.
Import ListNotations.
Require Import Verif.M_Path Verif.M_Scope Verif.S_Scope.
Open Scope nat_scope.

Lemma same_iff : forall a b, same a b = true <-> a = b.
Proof. intros a b. unfold same. destruct (list_eq_dec ascii_dec a b); split; congruence. Qed.
Lemma same_no : forall a b, same a b = false <-> a <> b.
Proof. intros a b. unfold same. destruct (list_eq_dec ascii_dec a b); split; congruence. Qed.
Lemma same_refl : forall a, same a a = true.
Proof. intros a. now apply same_iff. Qed.

(** * The relation *)
Lemma kept_refl : forall c w v, kept c w v v.
Proof. intros. repeat split. Qed.
Lemma kept_frame_refl : forall c w f, kept_frame c w f f.
Proof. intros. split; [|reflexivity]. induction (vars f); constructor; auto using kept_refl. Qed.
Lemma kept_stack_refl : forall c w st, kept_stack c w st st.
Proof. intros. induction st; constructor; auto using kept_frame_refl. Qed.
Lemma kept_trans : forall c w a b d, kept c w a b -> kept c w b d -> kept c w a d.
Proof.
  intros c w a b d [A1 [A2 [A3 A4]]] [B1 [B2 [B3 B4]]]. repeat split; try congruence.
  intros H. rewrite B4; [apply A4, H|]. rewrite A2. exact H.
Qed.
Lemma Forall2_trans : forall A (R : A -> A -> Prop), (forall a b c, R a b -> R b c -> R a c) ->
  forall l m n, Forall2 R l m -> Forall2 R m n -> Forall2 R l n.
Proof.
  intros A R T l m n H. revert n. induction H; intros k K; inversion K; subst; constructor; eauto.
Qed.
Lemma kept_frame_trans : forall c w a b d, kept_frame c w a b -> kept_frame c w b d -> kept_frame c w a d.
Proof.
  intros c w a b d [A1 A2] [B1 B2]. split; [|congruence]. eapply Forall2_trans; eauto using kept_trans.
Qed.
Lemma kept_stack_trans : forall c w a b d, kept_stack c w a b -> kept_stack c w b d -> kept_stack c w a d.
Proof. intros. eapply Forall2_trans; eauto using kept_frame_trans. Qed.

(** The equality case. *)
Lemma kept_eq : forall w v v', kept false w v v' -> v' = v.
Proof. intros w [n x k] [n' x' k'] [A [B [_ D]]]. cbn in *. rewrite A, B, D; auto. Qed.
Lemma kept_frame_eq : forall w f f', kept_frame false w f f' -> f' = f.
Proof.
  intros w [vs l] [vs' l'] [A B]. cbn in *. subst l'. f_equal. induction A; [reflexivity|]. f_equal; [now apply kept_eq in H|assumption].
Qed.
Lemma kept_stack_eq : forall w st st', kept_stack false w st st' -> st' = st.
Proof. intros w st st' H. induction H; [reflexivity|]. f_equal; [now apply kept_frame_eq in H|assumption]. Qed.

(** * Finding *)
Lemma find_kept : forall c w n l l', Forall2 (kept c w) l l' ->
  match find (fun v => same n (vname v)) l, find (fun v => same n (vname v)) l' with
  | Some v, Some v' => kept c w v v'
  | None, None => True
  | _, _ => False
  end.
Proof.
  intros c w n l l' H. induction H as [|v v' l l' K]; cbn; [exact I|].
  rewrite (proj1 K). destruct (same n (vname v)); [exact K|exact IHForall2].
Qed.
Lemma local_kept : forall c w n f f' v, kept_frame c w f f' -> local n f = Some v -> exists v', local n f' = Some v' /\ kept c w v v'.
Proof.
  intros c w n f f' v [H _] E. unfold local in *. assert (K := find_kept c w n _ _ H). rewrite E in K.
  destruct (find _ (vars f')) as [v'|]; [|contradiction]. eauto.
Qed.
Lemma local_kept_none : forall c w n f f', kept_frame c w f f' -> local n f = None -> local n f' = None.
Proof.
  intros c w n f f' [H _] E. unfold local in *. assert (K := find_kept c w n _ _ H). rewrite E in K.
  destruct (find _ (vars f')) as [v'|]; [contradiction|reflexivity].
Qed.
Lemma nth_kept : forall c w st st' i f, kept_stack c w st st' -> nth_error st i = Some f ->
  exists f', nth_error st' i = Some f' /\ kept_frame c w f f'.
Proof.
  intros c w st st' i f H. revert i. induction H; intros [|i] E; cbn in E; try discriminate.
  - injection E as <-. exists y. split; [reflexivity|assumption].
  - apply IHForall2, E.
Qed.
Lemma local_name : forall n f v, local n f = Some v -> vname v = n.
Proof. intros n f v H. apply find_some in H as [_ H]. apply same_iff in H. congruence. Qed.
Lemma local_in : forall n f v, local n f = Some v -> In v (vars f).
Proof. intros n f v H. now apply find_some in H. Qed.

Lemma lookup_nth : forall n st i v, lookup n st = Some (i, v) -> exists f, nth_error st i = Some f /\ local n f = Some v.
Proof.
  induction st as [|f st IH]; intros i v H; cbn in H; [discriminate|].
  destruct (local n f) as [x|] eqn:E.
  - injection H as <- <-. exists f. auto.
  - destruct (lookup n st) as [[j x]|] eqn:E2; [|discriminate]. injection H as <- <-. apply IH. reflexivity.
Qed.

(** * Well-formed stacks *)
(** The last variable seen, when it is further out, is there, and not frozen. *)
Definition last_ok (c : bool) (f : frame) (t : list frame) : Prop :=
  match last f with
  | Some (n, Some i) => c = true /\ exists j g v, i = S j /\ nth_error t j = Some g /\ local n g = Some v /\ frozen v = 0%N
  | _ => True
  end.
Definition counts (B : N) (f : frame) : Prop := Forall (fun v => (frozen v <= B)%N) (vars f).
(** B bounds the freeze counts. *)
Definition good (c : bool) (B : N) (st : list frame) : Prop :=
  match st with
  | [] => False
  | f :: t => counts 0 f /\ Forall (counts B) t /\ last_ok c f t
  end.

Lemma counts_mono : forall A B f, (A <= B)%N -> counts A f -> counts B f.
Proof. intros A B f H. apply Forall_impl. intros v K. lia. Qed.
Lemma good_counts : forall c B st, good c B st -> Forall (counts B) st.
Proof.
  intros c B [|f t] H; [constructor|]. destruct H as [A [H _]]. constructor; [|exact H]. eapply counts_mono; [|exact A]. lia.
Qed.
Lemma counts_kept : forall c w B f f', kept_frame c w f f' -> counts B f -> counts B f'.
Proof.
  intros c w B f f' [H _]. unfold counts. induction H as [|v v' l l' K]; intros C; [constructor|].
  inversion C; subst. constructor; [|auto]. destruct K as [_ [K _]]. rewrite K. assumption.
Qed.
Lemma all_counts_kept : forall c w B st st', kept_stack c w st st' -> Forall (counts B) st -> Forall (counts B) st'.
Proof. intros c w B st st' H. induction H; intros C; inversion C; subst; constructor; eauto using counts_kept. Qed.
Lemma good_kept : forall c w B st st', kept_stack c w st st' -> good c B st -> good c B st'.
Proof.
  intros c w B st st' H. destruct H as [|f f' t t' K H]; [intros []|]. intros [G1 [G2 G3]]. split; [|split].
  - eapply counts_kept; eauto.
  - eapply all_counts_kept; eauto.
  - unfold last_ok in *. rewrite (proj2 K). destruct (last f) as [[n [i|]]|]; auto.
    destruct G3 as [Gc [j [g [v [Gi [Gn [Gl Gf]]]]]]]. split; [exact Gc|].
    destruct (nth_kept _ _ _ _ _ _ H Gn) as [g' [N' K']]. destruct (local_kept _ _ _ _ _ _ K' Gl) as [v' [L' Kv]].
    exists j, g', v'. repeat split; auto. destruct Kv as [_ [Kv _]]. congruence.
Qed.

(** * Setting variables *)
Lemma put_var_kept : forall w n x l v, find (fun v => same n (vname v)) l = Some v -> frozen v = 0%N -> kind_of x = kind_of (val v) ->
  Forall2 (kept true w) l (put_var n x l).
Proof.
  intros w n x l. induction l as [|u l IH]; intros v E F K; [discriminate|]. cbn in *.
  destruct (same n (vname u)) eqn:S1.
  - injection E as ->. constructor.
    + repeat split; auto. intros [H|[_ H]]; [discriminate|contradiction].
    + clear. induction l; constructor; auto using kept_refl.
  - constructor; [apply kept_refl|eauto].
Qed.
Lemma swap_var_same : forall n x l v, find (fun v => same n (vname v)) l = Some v -> frozen v = 0%N -> swap_var n x l = put_var n x l.
Proof.
  intros n x l. induction l as [|u l IH]; intros v E F; [discriminate|]. cbn in *.
  destruct (same n (vname u)) eqn:S1; [|f_equal; eauto]. injection E as ->. apply same_iff in S1. now rewrite F, S1.
Qed.
Lemma put_var_zero : forall n x l, Forall (fun v => (frozen v <= 0)%N) l -> Forall (fun v => (frozen v <= 0)%N) (put_var n x l).
Proof.
  intros n x l H. induction H as [|v l H1 H2 IH]; cbn.
  - constructor; [cbn; lia|constructor].
  - destruct (same n (vname v)); constructor; auto.
Qed.
Lemma swap_var_zero : forall n x l, Forall (fun v => (frozen v <= 0)%N) l -> Forall (fun v => (frozen v <= 0)%N) (swap_var n x l).
Proof.
  intros n x l H. induction H as [|v l H1 H2 IH]; cbn.
  - constructor; [cbn; lia|constructor].
  - destruct (same n (vname v)); constructor; auto. cbn. lia.
Qed.

(** Where an assignment goes: the head frame, or a declared variable further out that is not frozen. *)
Definition dest_ok (c : bool) (n : str) (d : option nat) (st : list frame) : Prop :=
  match d with
  | None => True
  | Some i => c = true /\ exists j g v, i = S j /\ nth_error (tl st) j = Some g /\ local n g = Some v /\ frozen v = 0%N
  end.
Definition same_kind (d : option nat) (old : option value) (x : value) : Prop :=
  d <> None -> match old with Some y => kind_of x = kind_of y | None => False end.

Lemma upd_nth_kept : forall c w j (g : frame -> frame) t f, nth_error t j = Some f -> kept_frame c w f (g f) -> kept_stack c w t (upd_nth j g t).
Proof.
  intros c w j g t. revert j. induction t as [|a t IH]; intros [|j] f E K; cbn in *; try discriminate.
  - injection E as ->. constructor; [exact K|apply kept_stack_refl].
  - constructor; [apply kept_frame_refl|]. exact (IH j f E K).
Qed.
Lemma set_ok : forall (sw : bool) c w B n d x st, good c B st -> dest_ok c n d st -> same_kind d (old_value n d st) x ->
  let st' := upd_nth (at_ d) (if sw then swap_frame n x else put_frame n x) st in
  good c B st' /\ kept_stack c w (tl st) (tl st').
Proof.
  intros sw c w B n d x [|f t] G D K; [contradiction|]. cbn zeta. destruct d as [i|].
  - destruct D as [-> [j [g [v [-> [N [Lo F]]]]]]]. cbn [tl] in N. cbn [at_ upd_nth tl].
    assert (Kg : kept_frame true w g ((if sw then swap_frame n x else put_frame n x) g)).
    { unfold old_value, get_var in K. cbn [nth_error] in K. rewrite N, Lo in K. specialize (K ltac:(discriminate)). cbn in K.
      split; [|now destruct sw]. destruct sw; cbn [vars swap_frame put_frame].
      - rewrite (swap_var_same _ _ _ v Lo F). eapply put_var_kept; eauto.
      - eapply put_var_kept; eauto. }
    assert (Kt : kept_stack true w t (upd_nth j (if sw then swap_frame n x else put_frame n x) t)) by (eapply upd_nth_kept; eauto).
    split; [|exact Kt]. eapply good_kept; [|exact G]. constructor; [apply kept_frame_refl|exact Kt].
  - cbn [at_ upd_nth tl]. split; [|apply kept_stack_refl]. destruct G as [G1 [G2 G3]]. split; [|split].
    + unfold counts in *. destruct sw; cbn [vars swap_frame put_frame]; [now apply swap_var_zero|now apply put_var_zero].
    + exact G2.
    + unfold last_ok in *. now destruct sw.
Qed.

(** * New values have the kind of the old ones *)
Lemma bind_good : forall A B (x : res A) (f : A -> res B) b, bind x f = Good b -> exists a, x = Good a /\ f a = Good b.
Proof. intros A B [a|c|u] f b H; cbn in H; try discriminate. eauto. Qed.
Definition fine {A} (x : res A) : Prop := match x with Undef u => u = Overflow | _ => True end.
Lemma bind_fine : forall A B (x : res A) (f : A -> res B), fine x -> (forall a, x = Good a -> fine (f a)) -> fine (bind x f).
Proof. intros A B [a|c|u] f H K; cbn in *; auto. Qed.
Lemma int32_fine : forall z, fine (int32 z).
Proof. intros z. unfold int32. destruct (_ && _); cbn; auto. Qed.

Lemma store_text_kind : forall o old x v, store_text o old x = Good v -> match old with Some y => kind_of v = kind_of y | None => True end.
Proof.
  intros o [y|] x v H; [|exact I].
  destruct o, y as [s|b|z|l|m|[|y l]]; cbn in H; try discriminate; injection H as <-; reflexivity.
Qed.
Lemma store_int_kind : forall o old x v, store_int o old x = Good v -> match old with Some y => kind_of v = kind_of y | None => True end.
Proof.
  intros o [y|] x v H; [|exact I]. destruct y; cbn in H; try discriminate.
  destruct o; [injection H as <-; reflexivity| |]; apply bind_good in H as [? [_ H]]; injection H as <-; reflexivity.
Qed.
Lemma store_bool_kind : forall o old x v, store_bool o old x = Good v -> match old with Some y => kind_of v = kind_of y | None => True end.
Proof. intros o [y|] x v H; [|exact I]. destruct o, y; cbn in H; try discriminate; injection H as <-; reflexivity. Qed.
Lemma store_array_kind : forall st o old l v, store_array st o old l = Good v ->
  match old with Some y => kind_of v = kind_of y | None => True end.
Proof.
  intros st o [y|] l v H; [|exact I]. unfold store_array in H. apply bind_good in H as [start [H1 H2]].
  assert (Y : kind_of y = KArray) by (destruct o, y; cbn in H1; try discriminate; reflexivity). rewrite Y.
  apply bind_good in H2 as [[[k a] b] [_ H2]]. destruct k as [[]|]; [| |destruct y]; try (injection H2 as <-; reflexivity).
Qed.
Lemma concat_kind : forall a b v, concat_vars (VStruct a) (VStruct b) = Good v -> kind_of v = KStruct.
Proof. intros a b v H. cbn [concat_vars] in H. apply bind_good in H as [all [_ H]]. injection H as <-. reflexivity. Qed.
Lemma store_var_kind : forall o old x v, store_var o old x = Good v -> match old with Some y => kind_of (snd v) = kind_of y | None => True end.
Proof.
  intros o [y|] x v H; [|exact I].
  destruct o, y as [s|c|z|[|y1 l]|m|[|y2 l]], x as [s'|c'|z'|[|y1' l']|m'|[|y2' l']]; cbn -[concat_vars] in H;
    try discriminate; try (injection H as <-; reflexivity);
    apply bind_good in H as [? [E H]]; injection H as <-; cbn [snd]; try reflexivity; exact (concat_kind _ _ _ E).
Qed.

(** No step but an overflow is undefined in these. *)
Lemma subst_fine : forall st s m, fine (subst_from st m s).
Proof.
  intros st s. induction s as [|c s IH]; intros m; cbn [subst_from]; [destruct m; exact I|].
  destruct m as [| |n].
  - destruct (Ascii.eqb c "^"); [apply IH|]. destruct (Ascii.eqb c "$"); [apply IH|]. apply bind_fine; [apply IH|intros; exact I].
  - apply bind_fine; [apply IH|intros; exact I].
  - destruct (Ascii.eqb c "$"); [|apply IH]. destruct n; [exact I|]. destruct (get_var _ _ _) as [v|]; [|exact I].
    destruct (val v); try exact I; (apply bind_fine; [apply IH|intros; exact I]).
Qed.
Lemma var_name_fine : forall st n, fine (var_name st n).
Proof. intros st [n|raw]; cbn; [exact I|apply subst_fine]. Qed.
Lemma store_text_fine : forall o old x, fine (store_text o old x).
Proof. intros o [y|] x; destruct o; try exact I; destruct y as [s|b|z|l|m|[|y l]]; exact I. Qed.
Lemma store_int_fine : forall o old x, fine (store_int o old x).
Proof.
  intros o [y|] x; destruct o; try exact I; destruct y; try exact I; cbn;
  (apply bind_fine; [apply int32_fine|intros; exact I]).
Qed.
Lemma elements_fine : forall st o l k a b, fine (elements st o l k a b).
Proof.
  intros st o l. induction l as [|[raw|p n] l IH]; intros k a b; cbn [elements]; [exact I| |].
  - destruct (negb _); [exact I|]. destruct o; try exact I; (apply bind_fine; [apply subst_fine|intros; apply IH]).
  - apply bind_fine; [apply var_name_fine|]. intros nm _. destruct (source st p nm) as [v|]; [|exact I].
    destruct o; try exact I; (destruct (is_empty_array v); [apply IH|]; destruct v; try exact I; destruct (compatible _ _); try exact I; apply IH).
Qed.
Lemma store_array_fine : forall st o old l, fine (store_array st o old l).
Proof.
  intros st o old l. unfold store_array. apply bind_fine.
  - destruct o, old as [[]|]; exact I.
  - intros start _. cbn zeta. apply bind_fine; [apply elements_fine|]. intros [[[[]|] a] b] _; try exact I.
    destruct old as [[]|]; exact I.
Qed.
Fixpoint concat_fine (a : value) : forall b, fine (concat_vars a b).
Proof.
  intros b. destruct a as [s|c|z|[|y1 l]|m|[|y2 l]], b as [s'|c'|z'|[|y1' l']|m'|[|y2' l']]; cbn [concat_vars]; try exact I.
  1: apply bind_fine; [apply int32_fine|intros; exact I].
  apply bind_fine; [|intros; exact I].
  induction m as [|[n x] m IH]; [exact I|].
  apply bind_fine.
  - destruct (assoc n m') as [y|]; [apply concat_fine|exact I].
  - intros z _. apply bind_fine; [exact IH|intros; exact I].
Qed.
Lemma store_var_fine : forall o old x, fine (store_var o old x).
Proof.
  intros o [y|] x; [|destruct o; exact I].
  destruct o, y as [s|c|z|[|y1 l]|m|[|y2 l]], x as [s'|c'|z'|[|y1' l']|m'|[|y2' l']]; cbn -[concat_vars]; try exact I;
    (apply bind_fine; [first [apply int32_fine|apply concat_fine]|intros; exact I]).
Qed.
Lemma header_fine : forall st h len, fine (header st h len).
Proof.
  intros st h. induction h as [|[x [p a]] h IH]; intros len; cbn [header]; [exact I|].
  apply bind_fine; [apply var_name_fine|]. intros x' _. apply bind_fine; [apply var_name_fine|]. intros a' _.
  destruct (if p then _ else _) as [[i v]|]; [|exact I]. destruct (array_len (val v)); [|exact I].
  destruct (match len with None => true | Some m => m =? n end); [|exact I]. apply bind_fine; [apply IH|intros; exact I].
Qed.
Lemma arguments_fine : forall ps args f st, fine (arguments ps args f st).
Proof.
  induction ps as [|p ps IH]; intros [|a args] f st; cbn [arguments]; try exact I.
  apply bind_fine; [|intros; apply IH].
  destruct a as [raw|z|b|pa n]; try exact I.
  - apply bind_fine; [apply subst_fine|intros; exact I].
  - apply bind_fine; [apply var_name_fine|]. intros n' _. destruct (source _ _ _); exact I.
Qed.

(** * Freezing *)
Definition rf (k : N) (n : str) (f : frame) : frame := {| vars := upd_var n (freeze_by k) (vars f); last := last f |}.
Lemma refreeze_eq : forall k p st, refreeze k p st = upd_nth (fst p) (rf k (snd p)) st.
Proof. reflexivity. Qed.

Lemma upd_nth_comm : forall A (g h : A -> A) i j l, (forall x, g (h x) = h (g x)) -> upd_nth i g (upd_nth j h l) = upd_nth j h (upd_nth i g l).
Proof.
  intros A g h i j l H. revert i j. induction l as [|a l IH]; intros [|i] [|j]; cbn; try reflexivity.
  - now rewrite H.
  - now rewrite IH.
Qed.
Lemma freeze_comm : forall a b v, freeze_by a (freeze_by b v) = freeze_by b (freeze_by a v).
Proof.
  intros a b v. unfold freeze_by. cbn. f_equal. rewrite !N.add_mod_idemp_l by lia. f_equal. lia.
Qed.
Lemma upd_var_comm : forall a b n m l, upd_var n (freeze_by a) (upd_var m (freeze_by b) l) = upd_var m (freeze_by b) (upd_var n (freeze_by a) l).
Proof.
  intros a b n m l. induction l as [|v l IH]; [reflexivity|]. cbn.
  destruct (same m (vname v)) eqn:Em, (same n (vname v)) eqn:En; cbn; rewrite ?Em, ?En; cbn; rewrite ?Em, ?En.
  - now rewrite freeze_comm.
  - reflexivity.
  - reflexivity.
  - now rewrite IH.
Qed.
Lemma refreeze_comm : forall a b p q st, refreeze a p (refreeze b q st) = refreeze b q (refreeze a p st).
Proof.
  intros a b p q st. rewrite !refreeze_eq. apply upd_nth_comm. intros f. unfold rf. cbn. now rewrite upd_var_comm.
Qed.
Lemma fold_refreeze_out : forall k (l : list (str * (nat * str))) p st,
  fold_left (fun st q => refreeze k (snd q) st) l (refreeze k p st) = refreeze k p (fold_left (fun st q => refreeze k (snd q) st) l st).
Proof.
  intros k l. induction l as [|q l IH]; intros p st; [reflexivity|]. cbn [fold_left]. rewrite refreeze_comm. apply IH.
Qed.

Lemma rf_counts : forall B n f, (B + 1 < 256)%N -> counts B f -> counts (B + 1) (rf 1 n f).
Proof.
  intros B n f H. unfold counts. cbn [rf vars]. induction (vars f) as [|v l IH]; intros C; [constructor|]. inversion C; subst. cbn.
  destruct (same n (vname v)); constructor.
  - cbn. rewrite N.mod_small; lia.
  - eapply Forall_impl; [|exact H3]. intros u Hu. cbn beta in *. lia.
  - lia.
  - apply IH. assumption.
Qed.
Lemma rf_counts_any : forall k n f, counts 255 f -> counts 255 (rf k n f).
Proof.
  intros k n f. unfold counts. cbn [rf vars]. induction (vars f) as [|v l IH]; intros C; [constructor|]. inversion C; subst. cbn.
  destruct (same n (vname v)); constructor; auto.
  cbn. assert (Hm := N.mod_lt (frozen v + k) 256). lia.
Qed.
Lemma upd_nth_all : forall A (P : A -> Prop) i g l, Forall P l -> (forall x, P x -> P (g x)) -> Forall P (upd_nth i g l).
Proof. intros A P i g l H G. revert i. induction H; intros [|i]; cbn; constructor; auto. Qed.
Lemma upd_nth_grow : forall A (P Q : A -> Prop) i g l, Forall P l -> (forall x, P x -> Q x) -> (forall x, P x -> Q (g x)) -> Forall Q (upd_nth i g l).
Proof.
  intros A P Q i g l H W G. revert i. induction H as [|x l Hx Hl IH]; intros [|i]; cbn; constructor; auto.
  eapply Forall_impl; [|exact Hl]. auto.
Qed.
Lemma refreeze_counts : forall B p st, (B + 1 < 256)%N -> Forall (counts B) st -> Forall (counts (B + 1)) (refreeze 1 p st).
Proof.
  intros B p st H C. rewrite refreeze_eq. eapply upd_nth_grow; [exact C| |].
  - intros f. apply counts_mono. lia.
  - intros f. now apply rf_counts.
Qed.
Lemma fold_freeze_counts : forall (l : list (str * (nat * str))) B st, (B + N.of_nat (length l) < 256)%N -> Forall (counts B) st ->
  Forall (counts (B + N.of_nat (length l))) (fold_left (fun st q => refreeze 1 (snd q) st) l st).
Proof.
  induction l as [|q l IH]; intros B st H C; cbn [fold_left length] in *.
  - now rewrite N.add_0_r.
  - replace (B + N.of_nat (S (length l)))%N with (B + 1 + N.of_nat (length l))%N in * by lia. apply IH; [lia|]. apply refreeze_counts; [lia|exact C].
Qed.
Lemma fold_freeze_any : forall (l : list (str * (nat * str))) k st, Forall (counts 255) st ->
  Forall (counts 255) (fold_left (fun st q => refreeze k (snd q) st) l st).
Proof.
  induction l as [|q l IH]; intros k st C; cbn [fold_left]; [exact C|]. apply IH. rewrite refreeze_eq. apply upd_nth_all; [exact C|].
  intros f. apply rf_counts_any.
Qed.

(** Unfreezing undoes freezing. *)
Lemma unfreeze_kept : forall c w v v', (frozen v <= 255)%N -> (w = true -> (frozen v < 255)%N) -> kept c w (freeze_by 1 v) v' -> kept c w v (freeze_by 255 v').
Proof.
  intros c w v v' H W [A [B [D E]]]. cbn in *. repeat split; cbn; auto.
  - rewrite B. rewrite N.add_mod_idemp_l by lia. replace (frozen v + 1 + 255)%N with (frozen v + 1 * 256)%N by lia.
    rewrite N.mod_add by lia. apply N.mod_small. lia.
  - intros [K|[K1 K2]]; apply E; [now left|right]. split; [exact K1|]. specialize (W K1). rewrite N.mod_small; lia.
Qed.
Lemma rf_kept : forall c w n f f', counts 255 f -> (w = true -> counts 254 f) -> kept_frame c w (rf 1 n f) f' -> kept_frame c w f (rf 255 n f').
Proof.
  intros c w n [l la] [l' la'] C W [K Kl]. cbn in Kl. subst la'. split; [|reflexivity]. unfold counts in *. cbn [vars rf] in *.
  revert l' K. induction l as [|v l IH]; intros l' K; cbn [upd_var] in K.
  - inversion K. constructor.
  - inversion C; subst. assert (W1 : w = true -> (frozen v < 255)%N) by (intros E; specialize (W E); inversion W; subst; lia).
    assert (W2 : w = true -> Forall (fun v => (frozen v <= 254)%N) l) by (intros E; specialize (W E); inversion W; subst; assumption).
    destruct (same n (vname v)) eqn:E.
    + inversion K as [|a v' b l2 K1 K2]; subst. cbn [upd_var]. assert (Nm := proj1 K1). cbn in Nm. rewrite Nm, E.
      constructor; [|exact K2]. now apply unfreeze_kept.
    + inversion K as [|a v' b l2 K1 K2]; subst. cbn [upd_var]. rewrite (proj1 K1), E. constructor; [exact K1|]. apply IH; auto.
Qed.
Lemma refreeze_kept : forall c w p st B, Forall (counts 255) st -> (w = true -> Forall (counts 254) st) ->
  kept_stack c w (refreeze 1 p st) B -> kept_stack c w st (refreeze 255 p B).
Proof.
  intros c w [i n] st B C W. rewrite !refreeze_eq. cbn [fst snd]. revert i B. induction st as [|f st IH]; intros i B K.
  - cbn in K. destruct i; inversion K; constructor.
  - inversion C; subst. assert (W1 : w = true -> counts 254 f) by (intros E; specialize (W E); now inversion W).
    assert (W2 : w = true -> Forall (counts 254) st) by (intros E; specialize (W E); now inversion W).
    destruct i as [|i]; cbn [upd_nth] in K; inversion K as [|a f' b B' K1 K2]; subst; cbn [upd_nth]; constructor; auto.
    + now apply rf_kept.
    + apply IH; assumption.
Qed.
Lemma fold_unfreeze : forall c w (l : list (str * (nat * str))) st B, Forall (counts 255) st ->
  (w = true -> exists b, (b + N.of_nat (length l) < 256)%N /\ Forall (counts b) st) ->
  kept_stack c w (fold_left (fun st q => refreeze 1 (snd q) st) l st) B ->
  kept_stack c w st (fold_left (fun st q => refreeze 255 (snd q) st) l B).
Proof.
  intros c w l. induction l as [|q l IH]; intros st B C W K; cbn [fold_left] in *; [exact K|].
  rewrite fold_refreeze_out. apply refreeze_kept; [exact C| |].
  - intros E. destruct (W E) as [b [Hb Cb]]. cbn [length] in Hb. eapply Forall_impl; [|exact Cb]. intros f. apply counts_mono. lia.
  - apply IH; [|intros E|exact K].
    + rewrite refreeze_eq. apply upd_nth_all; [exact C|]. intros f. apply rf_counts_any.
    + destruct (W E) as [b [Hb Cb]]. cbn [length] in Hb. exists (b + 1)%N. split; [lia|]. apply refreeze_counts; [lia|exact Cb].
Qed.

(** What is found in a frame after freezing. *)
Lemma local_rf : forall n k m f, local n (rf k m f) = match local n f with Some v => Some (if same n m then freeze_by k v else v) | None => None end.
Proof.
  intros n k m f. unfold local. cbn [rf vars]. induction (vars f) as [|v l IH]; [reflexivity|]. cbn [upd_var find].
  destruct (same m (vname v)) eqn:Em; cbn [find freeze_by vname].
  - apply same_iff in Em. subst m. destruct (same n (vname v)) eqn:En; [reflexivity|].
    destruct (find (fun v0 => same n (vname v0)) l); reflexivity.
  - destruct (same n (vname v)) eqn:En; [|exact IH]. apply same_iff in En. subst n. destruct (same (vname v) m) eqn:E; [|reflexivity].
    apply same_iff in E. subst m. now rewrite same_refl in Em.
Qed.
Lemma nth_upd : forall A (g : A -> A) l i j, nth_error (upd_nth i g l) j = match nth_error l j with Some x => Some (if i =? j then g x else x) | None => None end.
Proof.
  intros A g l. induction l as [|a l IH]; intros [|i] [|j]; cbn; try reflexivity.
  - destruct (nth_error l j); reflexivity.
  - rewrite IH. reflexivity.
Qed.
Lemma get_refreeze : forall a i k p st, get_var a (Some i) (refreeze k p st) =
  match get_var a (Some i) st with Some v => Some (if (fst p =? i) && same a (snd p) then freeze_by k v else v) | None => None end.
Proof.
  intros a i k [j m] st. rewrite refreeze_eq. cbn [get_var fst snd]. rewrite nth_upd. destruct (nth_error st i) as [f|]; [|reflexivity].
  destruct (j =? i); cbn [andb].
  - apply local_rf.
  - destruct (local a f); reflexivity.
Qed.
Lemma fold_freeze_get : forall (l : list (str * (nat * str))) B a i v st, (B + N.of_nat (length l) < 256)%N -> (frozen v <= B)%N ->
  get_var a (Some i) st = Some v ->
  exists v', get_var a (Some i) (fold_left (fun st q => refreeze 1 (snd q) st) l st) = Some v' /\ val v' = val v /\
    (frozen v <= frozen v')%N /\ ((exists x, In (x, (i, a)) l) -> frozen v' <> 0%N).
Proof.
  induction l as [|[y [j m]] l IH]; intros B a i v st H F G; cbn [fold_left length snd] in *.
  - exists v. split; [exact G|split; [reflexivity|split; [lia|intros [x []]]]].
  - assert (G' := get_refreeze a i 1 (j, m) st). rewrite G in G'. cbn [fst snd] in G'.
    destruct ((j =? i) && same a m) eqn:E.
    + destruct (IH (B + 1)%N a i (freeze_by 1 v) (refreeze 1 (j, m) st)) as [v' [A1 [A2 [A3 A4]]]]; [lia| |exact G'|].
      * cbn. rewrite N.mod_small; lia.
      * exists v'. split; [exact A1|split; [exact A2|]]. cbn in A3. rewrite N.mod_small in A3 by lia. split; [lia|]. intros _. lia.
    + destruct (IH B a i v (refreeze 1 (j, m) st)) as [v' [A1 [A2 [A3 A4]]]]; [lia|exact F|exact G'|].
      exists v'. split; [exact A1|split; [exact A2|split; [exact A3|]]]. intros [x [K|K]]; [|apply A4; eauto].
      injection K as -> -> ->. rewrite Nat.eqb_refl, same_refl in E. discriminate.
Qed.
Lemma fold_freeze_cons : forall k (l : list (str * (nat * str))) f st, vars f = [] ->
  exists st', fold_left (fun st q => refreeze k (snd q) st) l (f :: st) = f :: st'.
Proof.
  intros k l. induction l as [|[y [j m]] l IH]; intros f st E; cbn [fold_left snd]; [eauto|].
  destruct f as [vs la]. cbn in E. subst vs. unfold refreeze at 2. cbn [fst snd]. destruct j; cbn [upd_nth vars upd_var]; apply IH; reflexivity.
Qed.

(** * ForEach *)
Lemma nth_tl : forall A (l : list A) i, nth_error (tl l) i = nth_error l (S i).
Proof. intros A [|a l] i; [destruct i; reflexivity|reflexivity]. Qed.
Lemma lookup_get : forall n st i v, lookup n st = Some (i, v) -> get_var n (Some i) st = Some v.
Proof. intros n st i v H. destruct (lookup_nth _ _ _ _ H) as [f [E Lo]]. cbn. now rewrite E. Qed.
Lemma decl2_get : forall n st i v, parent_decl2 n st = Some (i, v) -> get_var n (Some i) st = Some v.
Proof.
  intros n st i v H. unfold parent_decl2, shift in H. destruct (lookup n (tl (tl st))) as [[j x]|] eqn:E; [|discriminate].
  injection H as <- ->. destruct (lookup_nth _ _ _ _ E) as [f [Ef Lo]]. cbn [get_var plus]. rewrite !nth_tl in Ef. now rewrite Ef.
Qed.
Lemma header_ok : forall st h len p, header st h len = Good p ->
  length (fst p) = length h /\ (len <> None -> snd p = len) /\
  (forall x i a, In (x, (i, a)) (fst p) -> exists v k, get_var a (Some i) st = Some v /\ array_len (val v) = Some k /\ snd p = Some k).
Proof.
  intros st h. induction h as [|[x0 [pa a0]] h IH]; intros len p H; cbn [header] in H.
  - injection H as <-. cbn. split; [reflexivity|]. split; [reflexivity|]. intros x i a [].
  - apply bind_good in H as [x1 [_ H]]. apply bind_good in H as [a1 [_ H]].
    destruct (if pa then parent_decl2 a1 st else lookup a1 st) as [[i0 v0]|] eqn:E; [|discriminate].
    destruct (array_len (val v0)) as [k0|] eqn:K; [|discriminate].
    destruct (match len with None => true | Some m => m =? k0 end) eqn:Ek; [|discriminate].
    apply bind_good in H as [q [Hq H]]. injection H as <-. cbn [fst snd length].
    destruct (IH _ _ Hq) as [I1 [I2 I3]]. clear IH.
    assert (S0 : snd q = Some k0 /\ (len <> None -> len = Some k0)).
    { destruct len as [m|]; [apply Nat.eqb_eq in Ek; subst; split; [apply I2; discriminate|reflexivity]|].
      split; [apply I2; discriminate|congruence]. }
    destruct S0 as [S0 S1]. split; [now rewrite I1|]. split.
    + intros N0. now rewrite S0, S1.
    + intros x i a [K1|K1]; [|eapply I3; eauto]. injection K1 as -> -> ->. exists v0, k0. split; [|auto].
      destruct pa; [now apply decl2_get|now apply lookup_get].
Qed.

Lemma put_frame_zero : forall n x f, counts 0 f -> counts 0 (put_frame n x f).
Proof. intros n x f. unfold counts. cbn. apply put_var_zero. Qed.
Lemma loop_vars_zero : forall h i f rest f', counts 0 f -> last f = None -> loop_vars h i f rest = Good f' -> counts 0 f' /\ last f' = None.
Proof.
  induction h as [|[x [k a]] h IH]; intros i f rest f' C La H; cbn [loop_vars] in H; [injection H as <-; auto|].
  destruct (get_var a (Some k) rest); [|discriminate]. apply bind_good in H as [e [_ H]]. eapply IH; [| |exact H]; [now apply put_frame_zero|exact La].
Qed.
Definition arrays_ok (len : nat) (h : list (str * (nat * str))) (st : list frame) : Prop :=
  forall x k a, In (x, (k, a)) h -> exists v, get_var a (Some k) st = Some v /\ frozen v <> 0%N /\ array_len (val v) = Some len.
Lemma item_good : forall x i len, array_len x = Some len -> i < len -> exists e, item x i = Good e.
Proof.
  intros x i len H K. destruct x; cbn in H; try discriminate; injection H as <-; cbn; apply nth_error_Some in K;
    destruct (nth_error l i); eauto; contradiction.
Qed.
Lemma loop_vars_good : forall len h i f rest, arrays_ok len h rest -> i < len -> exists f', loop_vars h i f rest = Good f'.
Proof.
  intros len h. induction h as [|[x [k a]] h IH]; intros i f rest A K; cbn [loop_vars]; [eauto|].
  destruct (A x k a (or_introl eq_refl)) as [v [E [_ Ln]]]. rewrite E. destruct (item_good _ _ _ Ln K) as [e ->]. cbn [bind].
  apply IH; [|exact K]. intros y j b Hy. eapply A. right. exact Hy.
Qed.
Lemma get_kept : forall c w n i st st' v, kept_stack c w st st' -> get_var n (Some i) st = Some v -> exists v', get_var n (Some i) st' = Some v' /\ kept c w v v'.
Proof.
  intros c w n i st st' v K H. cbn [get_var] in *. destruct (nth_error st i) as [f|] eqn:E; [|discriminate].
  destruct (nth_kept _ _ _ _ _ _ K E) as [f' [-> Kf]]. eapply local_kept; eauto.
Qed.
Lemma arrays_kept : forall c len h st st', kept_stack c true st st' -> arrays_ok len h st -> arrays_ok len h st'.
Proof.
  intros c len h st st' K A x k a I1. destruct (A x k a I1) as [v [E [F Ln]]]. destruct (get_kept _ _ _ _ _ _ _ K E) as [v' [E' [K1 [K2 [K3 K4]]]]].
  exists v'. split; [exact E'|]. rewrite K2, K4; auto.
Qed.

(** * The parser *)
Definition Pb (c w : bool) (B : N) (body : list stmt -> state -> res state) : Prop := forall b s,
  (c = false -> no_caret b = true) -> (w = true -> four b = true /\ four_all s) -> good c B (stack s) ->
  match body b s with
  | Good s' => good c B (stack s') /\ kept_stack c w (tl (stack s)) (tl (stack s')) /\ (w = true -> four_all s')
  | Fail _ => True
  | Undef u => w = true -> u = Overflow
  end.
Definition after (c w : bool) (B : N) (st : list frame) (x : res state) : Prop :=
  match x with
  | Good s' => good c B (stack s') /\ kept_stack c w (tl st) (tl (stack s')) /\ (w = true -> four_all s')
  | Fail _ => True
  | Undef u => w = true -> u = Overflow
  end.
Lemma after_bind : forall A c w B st (x : res A) f, fine x -> (forall a, x = Good a -> after c w B st (f a)) -> after c w B st (bind x f).
Proof. intros A c w B st [a|e|u] f H K; cbn in *; auto. Qed.

Lemma good_fresh : forall c B st, Forall (counts B) st -> good c B (fresh :: st).
Proof. intros c B st H. split; [constructor|split; [exact H|exact I]]. Qed.

Lemma iterate_ok : forall c w B2 body b h len n i s,
  Pb c w B2 body -> (c = false -> no_caret b = true) -> (w = true -> four b = true /\ four_all s) -> Forall (counts B2) (stack s) ->
  (w = true -> arrays_ok len h (stack s) /\ i + n <= len) ->
  match iterate (body b) h n i s with
  | Good s' => kept_stack c w (stack s) (stack s') /\ (w = true -> four_all s')
  | Fail _ => True
  | Undef u => w = true -> u = Overflow
  end.
Proof.
  intros c w B2 body b h len n. induction n as [|n IH]; intros i s P Hc Hw C A; cbn [iterate].
  - split; [apply kept_stack_refl|]. intros E. now apply Hw.
  - destruct (loop_vars h i fresh (stack s)) as [f|e|u] eqn:E; cbn [bind].
    + destruct (loop_vars_zero h i fresh (stack s) f (Forall_nil _) eq_refl E) as [F1 F2].
      assert (Q := P b (with_stack (f :: stack s) s) Hc Hw). cbn [stack with_stack] in Q.
      destruct (body b (with_stack (f :: stack s) s)) as [s1|e|u]; cbn [bind]; [| exact I|apply Q; split; [exact F1|split; [exact C|unfold last_ok; now rewrite F2]]].
      destruct Q as [Q1 [Q2 Q3]]; [split; [exact F1|split; [exact C|unfold last_ok; now rewrite F2]]|]. cbn [tl] in Q2.
      assert (R := IH (S i) (pop s1) P Hc). cbn [stack pop with_stack] in R.
      match type of R with ?X -> ?Y -> ?Z -> _ => assert (R' : X /\ Y /\ Z) end.
      { split; [|split].
        - intros Ew. split; [now apply Hw|]. exact (Q3 Ew).
        - eapply all_counts_kept; eauto.
        - intros Ew. destruct (A Ew) as [A1 A2]. subst w. split; [eapply arrays_kept; eauto|lia]. }
      destruct R' as [R1 [R2 R3]]. specialize (R R1 R2 R3). destruct (iterate (body b) h n (S i) (pop s1)) as [s2|e|u]; auto.
      destruct R as [T1 T2]. split; [|exact T2]. eapply kept_stack_trans; eauto.
    + exact I.
    + intros Ew. destruct (A Ew) as [A1 A2]. destruct (loop_vars_good len h i fresh (stack s) A1) as [f E2]; [lia|congruence].
Qed.

Lemma four_all_stack : forall st s, four_all s -> four_all (with_stack st s).
Proof. intros st s H. exact H. Qed.

Section Steps.
Variables (c w : bool) (B : N) (body1 body2 : list stmt -> state -> res state).
Hypothesis bound : (B <= 255)%N /\ (w = true -> (B + 4 <= 255)%N).
Hypothesis H1 : forall c', Pb c' w B body1.
Hypothesis H2 : forall c', Pb c' w (if w then B + 4 else 255)%N body2.

Lemma set_after : forall (sw : bool) n d x s, good c B (stack s) -> (w = true -> four_all s) -> dest_ok c n d (stack s) -> same_kind d (old_value n d (stack s)) x ->
  after c w B (stack s) (Good (with_stack (upd_nth (at_ d) (if sw then swap_frame n x else put_frame n x) (stack s)) s)).
Proof.
  intros sw n d x s G W D K. destruct (set_ok sw c w B n d x (stack s) G D K) as [A1 A2]. split; [exact A1|]. split; [exact A2|exact W].
Qed.
Lemma same_kind_of : forall n d (s : state) x, dest_ok c n d (stack s) ->
  match old_value n d (stack s) with Some y => kind_of x = kind_of y | None => True end -> same_kind d (old_value n d (stack s)) x.
Proof.
  intros n d s x D K N. destruct d as [i|]; [|contradiction]. destruct D as [_ [j [g [v [-> [E [Lo _]]]]]]].
  unfold old_value in *. cbn [get_var] in *. rewrite nth_tl in E. rewrite E, Lo in *. exact K.
Qed.

Lemma declare_ok : forall n d o r s, (c = false -> plain_rhs r = true) -> (w = true -> narrow_rhs r = true /\ four_all s) -> good c B (stack s) ->
  dest_ok c n d (stack s) -> after c w B (stack s) (declare body1 n d o r s).
Proof.
  intros n d o r s Hc Hw G D. assert (W : w = true -> four_all s) by (intros E; now apply Hw).
  destruct r as [raw|z|b|pa src|l|b]; cbn [declare].
  - apply after_bind; [apply subst_fine|]. intros x _. apply after_bind; [apply store_text_fine|]. intros v E.
    apply (set_after false); auto. apply same_kind_of; [exact D|]. exact (store_text_kind _ _ _ _ E).
  - apply after_bind; [apply store_int_fine|]. intros v E.
    apply (set_after false); auto. apply same_kind_of; [exact D|]. exact (store_int_kind _ _ _ _ E).
  - apply after_bind; [destruct o; try exact I; cbn; destruct (old_value n d (stack s)) as [[]|]; exact I|]. intros v E.
    apply (set_after false); auto. apply same_kind_of; [exact D|]. exact (store_bool_kind _ _ _ _ E).
  - apply after_bind; [apply var_name_fine|]. intros m _. destruct (if pa then _ else _) as [[i x]|]; [|exact I].
    apply after_bind; [apply store_var_fine|]. intros [sw v] E. cbn [fst snd].
    assert (K := store_var_kind _ _ _ _ E). cbn [snd] in K.
    destruct sw; [apply (set_after true)|apply (set_after false)]; auto; now apply same_kind_of.
  - apply after_bind; [apply store_array_fine|]. intros v E.
    apply (set_after false); auto. apply same_kind_of; [exact D|]. exact (store_array_kind _ _ _ _ _ E).
  - destruct o; try exact I.
    destruct (match old_value n d (stack s) with None => true | Some (VStruct _) => true | _ => false end) eqn:Old; [|exact I].
    assert (Q := H1 c b (with_stack (fresh :: stack s) s) Hc Hw (good_fresh c B (stack s) (good_counts _ _ _ G))).
    destruct (body1 b (with_stack (fresh :: stack s) s)) as [s'|e|u]; [|exact I|exact Q]. cbn [bind].
    destruct Q as [Q1 [Q2 Q3]]. cbn [stack with_stack tl] in Q2. destruct (stack s') as [|top rest] eqn:Es; [contradiction|]. cbn [tl] in Q2.
    assert (Gr : good c B rest) by (eapply good_kept; eauto).
    assert (Dr : dest_ok c n d rest).
    { destruct d as [i|]; [|exact I]. destruct D as [Dc [j [g [v [-> [E [Lo F]]]]]]]. split; [exact Dc|]. rewrite nth_tl in E.
      destruct (nth_kept _ _ _ _ _ _ Q2 E) as [g' [E' K']]. destruct (local_kept _ _ _ _ _ _ K' Lo) as [v' [Lo' [_ [Kf _]]]].
      exists j, g', v'. rewrite nth_tl. repeat split; auto. congruence. }
    (* the destination frame, and that it has no such variable or a struct *)
    assert (X : exists f f', nth_error (stack s) (at_ d) = Some f /\ nth_error rest (at_ d) = Some f' /\ kept_frame c w f f').
    { assert (Y : exists f, nth_error (stack s) (at_ d) = Some f).
      { destruct d as [i|]; cbn [at_].
        - destruct D as [_ [j [g [v [-> [E _]]]]]]. rewrite nth_tl in E. eauto.
        - destruct (stack s) as [|f t]; [contradiction|]. exists f. reflexivity. }
      destruct Y as [f Ef]. destruct (nth_kept _ _ _ _ _ _ Q2 Ef) as [f' [E' K']]. eauto 6. }
    destruct X as [f [f' [Ef [Ef' Kf]]]]. rewrite Ef'.
    assert (Z : after c w B (stack s) (Good (with_stack (set_var n (VStruct (map (fun v => (vname v, val v)) (vars top))) d rest) s'))).
    { assert (SK : same_kind d (old_value n d rest) (VStruct (map (fun v => (vname v, val v)) (vars top)))).
      { intros Nd. destruct d as [i|]; [|contradiction]. destruct D as [Dc [j [g [v [-> [E [Lo F]]]]]]]. rewrite nth_tl in E.
        unfold old_value in *. cbn [get_var] in *. rewrite E, Lo in Old.
        destruct (nth_kept _ _ _ _ _ _ Q2 E) as [g' [E' K']]. destruct (local_kept _ _ _ _ _ _ K' Lo) as [v' [Lo' [_ [_ [Kk _]]]]].
        rewrite E', Lo'. rewrite Kk. destruct (val v); try discriminate. reflexivity. }
      destruct (set_ok false c w B n d _ rest Gr Dr SK) as [A1 A2]. split; [exact A1|]. split; [|exact Q3].
      eapply kept_stack_trans; [|exact A2]. destruct Q2; [constructor|assumption]. }
    destruct (local n f') as [v'|] eqn:Lf'; [|exact Z].
    destruct v' as [vn vx vf]. assert (IS : kind_of vx = KStruct).
    { destruct (local n f) as [v|] eqn:Lf.
      - destruct (local_kept _ _ _ _ _ _ Kf Lf) as [v2 [L2 [_ [_ [Kk _]]]]]. rewrite Lf' in L2. injection L2 as <-. cbn in Kk. rewrite Kk.
        assert (O : old_value n d (stack s) = Some (val v)).
        { unfold old_value. destruct d as [i|]; cbn [get_var at_] in *.
          - now rewrite Ef, Lf.
          - destruct (stack s) as [|f0 t0]; [discriminate|]. injection Ef as ->. cbn [lookup]. now rewrite Lf. }
        rewrite O in Old. destruct (val v); try discriminate. reflexivity.
      - rewrite (local_kept_none _ _ _ _ _ Kf Lf) in Lf'. discriminate. }
    destruct vx; try discriminate. exact Z.
Qed.

Lemma body_after : forall b s f, (c = false -> no_caret b = true) -> (w = true -> four b = true /\ four_all s) -> good c B (stack s) ->
  (forall s' top rest, stack s' = top :: rest -> stack (f s') = rest /\ funs (f s') = funs s') ->
  after c w B (stack s) (bind (body1 b (with_stack (fresh :: stack s) s)) (fun s' => Good (f s'))).
Proof.
  intros b s f Hc Hw G F. assert (Q := H1 c b (with_stack (fresh :: stack s) s) Hc Hw (good_fresh c B (stack s) (good_counts _ _ _ G))).
  destruct (body1 b (with_stack (fresh :: stack s) s)) as [s'|e|u]; [|exact I|exact Q]. cbn [bind after].
  destruct Q as [Q1 [Q2 Q3]]. cbn [stack with_stack tl] in Q2. destruct (stack s') as [|top rest] eqn:Es; [contradiction|]. cbn [tl] in Q2.
  destruct (F s' top rest Es) as [F1 F2]. rewrite F1. split; [eapply good_kept; eauto|]. split.
  - destruct Q2; [constructor|assumption].
  - intros E g ps b0 Hin. rewrite F2 in Hin. exact (Q3 E g ps b0 Hin).
Qed.

Lemma good_note : forall n d st, good c B st -> dest_ok c n d st -> good c B (note n d st).
Proof.
  intros n d [|f t] G D; [exact G|]. destruct G as [G1 [G2 G3]]. split; [exact G1|split; [exact G2|]].
  unfold last_ok. cbn [last]. destruct d as [i|]; [exact D|exact I].
Qed.
Lemma tl_note : forall n d st, tl (note n d st) = tl st.
Proof. intros n d [|f t]; reflexivity. Qed.
Lemma dest_note : forall n d st, dest_ok c n d st -> dest_ok c n d (note n d st).
Proof. intros n d st. unfold dest_ok. now rewrite tl_note. Qed.

Lemma import_zero : forall sk m f, counts 0 f -> counts 0 (import sk m f) /\ last (import sk m f) = last f.
Proof.
  intros sk m f C. unfold import.
  set (now := fix now (seen : bool) (m : list (str * value)) (f : frame) : frame := match m with [] => f | (k, x) :: r => if negb seen && _ then now true r f else now seen r (put_frame k x f) end).
  assert (A : forall m seen f, counts 0 f -> counts 0 (now seen m f) /\ last (now seen m f) = last f).
  { clear. induction m as [|[k x] m IH]; intros seen f C; cbn [now]; [auto|]. fold now.
    destruct (negb seen && _); [now apply IH|]. destruct (IH seen (put_frame k x f)) as [A1 A2]; [now apply put_frame_zero|]. split; [exact A1|exact A2]. }
  assert (F : forall l f, counts 0 f -> counts 0 (fold_left (fun f p => put_frame (fst p) (snd p) f) l f) /\ last (fold_left (fun f p => put_frame (fst p) (snd p) f) l f) = last f).
  { clear. induction l as [|[k x] l IH]; intros f C; cbn [fold_left]; [auto|]. destruct (IH (put_frame k x f)) as [A1 A2]; [now apply put_frame_zero|]. split; [exact A1|exact A2]. }
  destruct (A m false f C) as [A1 A2]. destruct (F (match sk with None => [] | Some n => match assoc n m with Some x => [(n, x)] | None => [] end end) (now false m f) A1) as [F1 F2].
  split; [exact F1|]. etransitivity; [exact F2|exact A2].
Qed.
Lemma arguments_zero : forall ps args f st f', counts 0 f -> last f = None -> arguments ps args f st = Good f' -> counts 0 f' /\ last f' = None.
Proof.
  induction ps as [|p ps IH]; intros [|a args] f st f' C La H; cbn [arguments] in H; try (injection H as <-; auto).
  apply bind_good in H as [v [_ H]]. eapply IH; [| |exact H]; [now apply put_frame_zero|exact La].
Qed.
Lemma assoc_in : forall A n (l : list (str * A)) x, assoc n l = Some x -> In (n, x) l.
Proof.
  intros A n l x. induction l as [|[k y] l IH]; cbn; [discriminate|]. destruct (same n k) eqn:E.
  - intros H. injection H as ->. apply same_iff in E. subst. now left.
  - intros H. right. auto.
Qed.

Lemma foreach_ok : forall h b s, (c = false -> no_caret b = true) -> (w = true -> narrow (SForEach h b) = true /\ four_all s) -> Forall (counts B) (stack s) ->
  match step body1 body2 (SForEach h b) s with
  | Good s' => kept_stack c w (stack s) (stack s') /\ (w = true -> four_all s')
  | Fail _ => True
  | Undef u => w = true -> u = Overflow
  end.
Proof.
  intros h b s Hc Hw G. assert (W : w = true -> four_all s) by (intros E; now apply Hw). cbn [step].
  assert (Hf := header_fine (fresh :: stack s) h None). destruct (header (fresh :: stack s) h None) as [p|e|u] eqn:Hp; [|exact I|intros _; exact Hf]. cbn [bind].
  destruct (header_ok _ _ _ _ Hp) as [P1 [_ P3]].
  assert (Same : kept_stack c w (stack s) (stack s) /\ (w = true -> four_all s)) by (split; [apply kept_stack_refl|exact W]).
  destruct (snd p) as [len|] eqn:Ln; [|exact Same].
  destruct len as [|len]; [exact Same|]. set (inside := fresh :: stack s) in *.
  set (fz := fold_left (fun st q => refreeze 1 (snd q) st) (fst p) inside).
  assert (Ci : Forall (counts B) inside) by (constructor; [constructor|exact G]).
  assert (Ci2 : Forall (counts 255) inside) by (eapply Forall_impl; [|exact Ci]; intros f0; apply counts_mono; lia).
  assert (Len : w = true -> length (fst p) <= 4).
  { intros E. destruct (Hw E) as [K _]. cbn [narrow] in K. apply andb_true_iff in K as [K _]. apply Nat.leb_le in K. lia. }
  assert (Cf : Forall (counts (if w then B + 4 else 255)) fz).
  { destruct w.
    - eapply Forall_impl; [|apply fold_freeze_counts; [|exact Ci]].
      + intros f0. apply counts_mono. specialize (Len eq_refl). lia.
      + specialize (Len eq_refl). destruct bound as [_ B4]. specialize (B4 eq_refl). lia.
    - now apply fold_freeze_any. }
  assert (Ar : w = true -> arrays_ok (S len) (fst p) (stack (with_stack fz s)) /\ 0 + S len <= S len).
  { intros E. split; [|lia]. intros x k a Hin. destruct (P3 x k a Hin) as [v [k' [Gv [Al Ek]]]].
    assert (Fv : (frozen v <= B)%N).
    { cbn [get_var] in Gv. destruct (nth_error inside k) as [f0|] eqn:En; [|discriminate]. apply nth_error_In in En.
      rewrite Forall_forall in Ci. specialize (Ci _ En). unfold counts in Ci. rewrite Forall_forall in Ci. apply Ci. eapply local_in; eauto. }
    destruct (fold_freeze_get (fst p) B a k v inside) as [v' [A1 [A2 [A3 A4]]]]; [|exact Fv|exact Gv|].
    - specialize (Len E). destruct bound as [_ B4]. specialize (B4 E). lia.
    - exists v'. split; [exact A1|]. split; [apply A4; eauto|]. rewrite A2. congruence. }
  assert (Hb : w = true -> four b = true /\ four_all (with_stack fz s)).
  { intros E. destruct (Hw E) as [K F]. cbn [narrow] in K. apply andb_true_iff in K as [_ K]. split; [exact K|exact F]. }
  assert (Q := iterate_ok c w _ body2 b (fst p) (S len) (S len) 0 (with_stack fz s) (H2 c) Hc Hb Cf Ar).
  destruct (iterate (body2 b) (fst p) (S len) 0 (with_stack fz s)) as [s'|e|u]; [|exact I|exact Q]. cbn [bind].
  destruct Q as [Q1 Q2]. cbn [stack with_stack] in Q1.
  assert (R : kept_stack c w inside (fold_left (fun st q => refreeze 255 (snd q) st) (fst p) (stack s'))).
  { apply fold_unfreeze; [exact Ci2| |exact Q1]. intros E. exists B. split; [|exact Ci].
    specialize (Len E). destruct bound as [_ B4]. specialize (B4 E). lia. }
  set (st' := fold_left (fun st q => refreeze 255 (snd q) st) (fst p) (stack s')) in *.
  assert (R1 : kept_stack c w (stack s) (tl st')) by (unfold inside in R; inversion R; assumption).
  split; [exact R1|exact Q2].
Qed.
Lemma step_ok : forall x s, (c = false -> plain x = true) -> (w = true -> narrow x = true /\ four_all s) -> good c B (stack s) ->
  after c w B (stack s) (step body1 body2 x s).
Proof.
  intros x s Hc Hw G. assert (W : w = true -> four_all s) by (intros E; now apply Hw).
  destruct x as [pa n o r|o r|b|pa n|raw|ng n b|h b|pa n|props b|f ps b|f args]; cbn [step].
  - (* SSet *)
    apply after_bind; [apply var_name_fine|]. intros m _. destruct pa.
    + destruct (parent_decl m (stack s)) as [[i v]|] eqn:E; [|exact I]. destruct (0 <? frozen v)%N eqn:Fz; [exact I|].
      assert (c = true) by (destruct c; [reflexivity|]; specialize (Hc eq_refl); discriminate).
      assert (D : dest_ok c m (Some i) (stack s)).
      { split; [assumption|]. unfold parent_decl, shift in E. destruct (lookup m (tl (stack s))) as [[j y]|] eqn:El; [|discriminate].
        injection E as <- ->. destruct (lookup_nth _ _ _ _ El) as [g [Eg Lo]]. exists j, g, v. repeat split; auto. apply N.ltb_ge in Fz. lia. }
      assert (Q := declare_ok m (Some i) o r (with_stack (note m (Some i) (stack s)) s)). cbn [stack with_stack] in Q.
      unfold after in *. rewrite tl_note in Q. apply Q; [|exact Hw|now apply good_note|now apply dest_note].
      intros K. congruence.
    + assert (Q := declare_ok m None o r (with_stack (note m None (stack s)) s)). cbn [stack with_stack] in Q.
      unfold after in *. rewrite tl_note in Q. apply Q; [|exact Hw|now apply good_note|exact I].
      intros K. specialize (Hc K). cbn in Hc. exact Hc.
  - (* SMore *)
    destruct (stack s) as [|[vs la] t] eqn:Es; [exact I|]. destruct la as [[n d]|]; [|exact I]. rewrite <- Es in *. apply declare_ok; auto.
    rewrite Es in G. destruct G as [_ [_ G]]. unfold last_ok in G. cbn [last] in G. destruct d as [i|]; [|exact I].
    unfold dest_ok. rewrite Es. exact G.
  - (* SScope *)
    apply body_after; auto. intros s' top rest Es. cbn. rewrite Es. auto.
  - (* SPrint *)
    apply after_bind; [apply var_name_fine|]. intros m _. destruct (if pa then _ else _) as [[i v]|]; [|exact I].
    split; [exact G|]. split; [apply kept_stack_refl|exact W].
  - apply after_bind; [apply subst_fine|]. intros t _. split; [exact G|]. split; [apply kept_stack_refl|exact W].
  - (* SIf *)
    apply after_bind; [apply var_name_fine|]. intros m _. destruct (lookup m (fresh :: stack s)) as [[i v]|]; [|exact I].
    destruct (val v); try exact I. destruct (xorb ng b0).
    + apply body_after; auto. intros s' top rest Es. cbn. rewrite Es. auto.
    + split; [exact G|]. split; [apply kept_stack_refl|exact W].
  - (* SForEach *)
    assert (Q := foreach_ok h b s Hc Hw (good_counts _ _ _ G)). unfold after. cbn [step] in Q.
    destruct (bind (header (fresh :: stack s) h None) _) as [s'|e|u]; auto. destruct Q as [Q1 Q2].
    split; [eapply good_kept; eauto|]. split; [|exact Q2]. inversion Q1; [constructor|assumption].
  - (* SUsing *)
    apply after_bind; [apply var_name_fine|]. intros m _. destruct (if pa then _ else _) as [[i v]|]; [|exact I].
    destruct (val v); try exact I. destruct (stack s) as [|f t] eqn:Es; [contradiction|]. cbn [upd_nth]. destruct G as [G1 [G2 G3]].
    destruct (import_zero (if pa then None else Some m) m0 f G1) as [I1 I2].
    split; [|split; [apply kept_stack_refl|exact W]]. split; [exact I1|]. split; [exact G2|]. unfold last_ok in *. now rewrite I2.
  - (* SBlock *)
    apply body_after; auto. intros s' top rest Es. cbn. rewrite Es. auto.
  - (* SFunction *)
    destruct (assoc f (funs s)); [exact I|]. destruct (distinct ps); [|exact I].
    split; [exact G|]. split; [apply kept_stack_refl|]. intros E g qs b0 Hin. cbn [funs] in Hin. apply in_app_or in Hin as [Hin|[Hin|[]]].
    + eapply W; eauto.
    + injection Hin as <- <- <-. now apply Hw.
  - (* SCall *)
    destruct (assoc f (funs s)) as [[ps b]|] eqn:Ef; [|exact I]. destruct (length args =? length ps); [|exact I].
    apply after_bind; [apply arguments_fine|]. intros top Ht. destruct (arguments_zero ps args fresh (stack s) top (Forall_nil _) eq_refl Ht) as [T1 T2].
    assert (Q := H1 true b (with_stack [top] s)). unfold after. destruct (body1 b (with_stack [top] s)) as [s'|e|u]; cbn [bind].
    + destruct Q as [Q1 [Q2 Q3]]; [discriminate| |split; [exact T1|split; [constructor|unfold last_ok; now rewrite T2]]|].
      * intros E. split; [|exact (W E)]. eapply W; [exact E|]. eapply assoc_in; eauto.
      * split; [exact G|]. split; [apply kept_stack_refl|]. exact Q3.
    + exact I.
    + apply Q; [discriminate| |split; [exact T1|split; [constructor|unfold last_ok; now rewrite T2]]].
      intros E. split; [|exact (W E)]. eapply W; [exact E|]. eapply assoc_in; eauto.
Qed.
End Steps.

Lemma parse_nil : forall r s, parse (S r) [] s = Good s.
Proof. intros [|r] s; reflexivity. Qed.
Lemma parse_cons : forall r x l s, parse (S r) (x :: l) s = bind (step (parse r) (parse (pred r)) x s) (parse (S r) l).
Proof.
  intros [|r] x l s; reflexivity.
Qed.

Definition bnd (w : bool) (r : nat) : N := if w then (2 * (126 - N.of_nat r))%N else 255%N.
Theorem parse_ok : forall w r, (w = true -> r <= 126) -> forall c, Pb c w (bnd w r) (parse r).
Proof.
  intros w. assert (X : forall r, ((w = true -> r <= 126) -> forall c B, (B <= bnd w r)%N -> Pb c w B (parse r)) /\ ((w = true -> pred r <= 126) -> forall c B, (B <= bnd w (pred r))%N -> Pb c w B (parse (pred r)))).
  { induction r as [|r [IH1 IH2]]; [split; intros _ c B _ b s _ _ _; exact I|]. split; [|exact IH1].
    intros Hr c B HB b. induction b as [|x l IHl]; intros s Hc Hw G.
    - rewrite parse_nil. split; [exact G|]. split; [apply kept_stack_refl|]. intros E. now apply Hw.
    - rewrite parse_cons.
      assert (K : after c w B (stack s) (step (parse r) (parse (pred r)) x s)).
      { destruct r as [|r].
        - (* the bodies fail *)
          apply step_ok with (body2 := parse 0); auto.
          + unfold bnd in HB. destruct w; split; try discriminate; try lia.
          + intros c' b' s' _ _ _. exact I.
          + intros c' b' s' _ _ _. exact I.
          + intros E. specialize (Hc E). cbn in Hc. now apply andb_true_iff in Hc.
          + intros E. destruct (Hw E) as [K1 K2]. cbn in K1. apply andb_true_iff in K1. tauto.
        - apply step_ok; auto.
          + unfold bnd in HB. destruct w; split; try discriminate; try lia.
          + intros c'. apply IH1; [intros E; specialize (Hr E); lia|]. unfold bnd in *. destruct w; lia.
          + intros c'. apply IH2; [intros E; specialize (Hr E); cbn; lia|]. unfold bnd in *. cbn [pred]. destruct w; [specialize (Hr eq_refl)|]; lia.
          + intros E. specialize (Hc E). cbn in Hc. now apply andb_true_iff in Hc.
          + intros E. destruct (Hw E) as [K1 K2]. cbn in K1. apply andb_true_iff in K1. tauto. }
      destruct (step (parse r) (parse (pred r)) x s) as [s1|e|u]; [|exact I|exact K]. cbn [bind after] in *.
      destruct K as [K1 [K2 K3]]. assert (Q := IHl s1).
      match type of Q with ?P -> ?R -> ?T -> _ => assert (Q' : P /\ R /\ T) end.
      { split; [|split; [|exact K1]].
        - intros E. specialize (Hc E). cbn in Hc. now apply andb_true_iff in Hc.
        - intros E. split; [|exact (K3 E)]. destruct (Hw E) as [K4 _]. cbn in K4. apply andb_true_iff in K4. tauto. }
      destruct Q' as [Q1 [Q2 Q3]]. specialize (Q Q1 Q2 Q3). destruct (parse (S r) l s1) as [s2|e|u]; auto.
      destruct Q as [R1 [R2 R3]]. split; [exact R1|]. split; [|exact R3]. eapply kept_stack_trans; eauto. }
  intros r Hr c. apply (proj1 (X r)); [exact Hr|]. lia.
Qed.
