(** Proofs about assignments: the names in a scope, and the members of a struct, are different. *)
From Coq Require Import String List Arith NArith ZArith Bool Ascii Lia.
Import ListNotations.
Require Import Verif.M_Path Verif.M_Scope Verif.S_Scope Verif.P_Scope Verif.P_Scope2 Verif.T_Scope Verif.S_Assign Verif.P_Assign.
Open Scope nat_scope.

Definition neat (f : frame) : Prop := NoDup (map vname (vars f)) /\ forall v, In v (vars f) -> tidy (val v).
Definition neat_all (s : state) : Prop := Forall neat (stack s).

Lemma put_var_in : forall n x l v, In v (put_var n x l) -> val v = x \/ In v l.
Proof.
  intros n x l. induction l as [|a l IH]; intros v H; cbn in H.
  - destruct H as [<-|[]]. now left.
  - destruct (same n (vname a)); destruct H as [<-|H]; [now left|right; now right|right; now left|]. apply IH in H as [H|H]; [now left|right; now right].
Qed.
Lemma put_var_names : forall n x l k, In k (map vname (put_var n x l)) -> k = n \/ In k (map vname l).
Proof.
  intros n x l. induction l as [|a l IH]; intros k H; cbn in H.
  - destruct H as [<-|[]]. now left.
  - destruct (same n (vname a)) eqn:E; destruct H as [<-|H]; [right; now left|right; now right|right; now left|]. apply IH in H as [H|H]; [now left|right; now right].
Qed.
Lemma put_var_nodup : forall n x l, NoDup (map vname l) -> NoDup (map vname (put_var n x l)).
Proof.
  intros n x l. induction l as [|a l IH]; intros H; cbn; [constructor; [intros []|constructor]|]. inversion H as [|? ? H1 H2]; subst. destruct (same n (vname a)) eqn:E; cbn.
  - now constructor.
  - constructor; [|auto]. intros K. apply put_var_names in K as [K|K]; [|contradiction]. apply same_no in E. congruence.
Qed.
Lemma swap_var_in : forall n x l v, In v (swap_var n x l) -> val v = x \/ In v l.
Proof.
  intros n x l. induction l as [|a l IH]; intros v H; cbn in H.
  - destruct H as [<-|[]]. now left.
  - destruct (same n (vname a)); destruct H as [<-|H]; [now left|right; now right|right; now left|]. apply IH in H as [H|H]; [now left|right; now right].
Qed.
Lemma swap_var_names : forall n x l k, In k (map vname (swap_var n x l)) -> k = n \/ In k (map vname l).
Proof.
  intros n x l. induction l as [|a l IH]; intros k H; cbn in H.
  - destruct H as [<-|[]]. now left.
  - destruct (same n (vname a)) eqn:E; destruct H as [<-|H]; [now left|right; now right|right; now left|]. apply IH in H as [H|H]; [now left|right; now right].
Qed.
Lemma swap_var_nodup : forall n x l, NoDup (map vname l) -> NoDup (map vname (swap_var n x l)).
Proof.
  intros n x l. induction l as [|a l IH]; intros H; cbn; [constructor; [intros []|constructor]|]. inversion H as [|? ? H1 H2]; subst. destruct (same n (vname a)) eqn:E; cbn.
  - apply same_iff in E. subst. now constructor.
  - constructor; [|auto]. intros K. apply swap_var_names in K as [K|K]; [|contradiction]. apply same_no in E. congruence.
Qed.
Lemma put_neat : forall n x f, neat f -> tidy x -> neat (put_frame n x f).
Proof. intros n x f [H1 H2] T. split; cbn; [now apply put_var_nodup|]. intros v K. apply put_var_in in K as [->|K]; auto. Qed.
Lemma swap_neat : forall n x f, neat f -> tidy x -> neat (swap_frame n x f).
Proof. intros n x f [H1 H2] T. split; cbn; [now apply swap_var_nodup|]. intros v K. apply swap_var_in in K as [->|K]; auto. Qed.
Lemma neat_fresh : neat fresh.
Proof. split; cbn; [constructor|intros v []]. Qed.
Lemma neat_sees : forall st n x, Forall neat st -> sees st n x -> tidy x.
Proof.
  intros st n x F H. induction H as [f st n x D|f st n x S0 H IH]; inversion F as [|? ? F1 F2]; subst.
  - destruct D as [v [[_ [l [r [E _]]]] V]]. subst x. apply (proj2 F1). rewrite E. apply in_app_iff. right. now left.
  - auto.
Qed.
Lemma neat_lookup : forall st n i v, Forall neat st -> lookup n st = Some (i, v) -> tidy (val v).
Proof. intros st n i v F H. apply (neat_sees st n); [exact F|]. apply sees_lookup. eauto. Qed.
Lemma tl_neat : forall st, Forall neat st -> Forall neat (tl st).
Proof. intros st F. destruct F; [constructor|assumption]. Qed.

(** * Values *)
Lemma added_in : forall s seen n x, In (n, x) (added seen s) -> In (n, x) s /\ ~ In n seen.
Proof.
  induction s as [|[k y] s IH]; intros seen n x H; cbn in H; [contradiction|].
  match type of H with context [if ?b then _ else _] => destruct b eqn:E end.
  - apply IH in H as [H1 H2]. split; [now right|exact H2].
  - destruct H as [H|H].
    + injection H as -> ->. split; [now left|]. intros K.
      assert (X : existsb (fun k => if list_eq_dec ascii_dec k n then true else false) seen = true).
      { apply existsb_exists. exists n. split; [exact K|]. destruct (list_eq_dec ascii_dec n n); congruence. } congruence.
    + apply IH in H as [H1 H2]. split; [now right|]. intros K. apply H2. now right.
Qed.
Lemma added_nodup : forall s seen, NoDup (map fst (added seen s)).
Proof.
  induction s as [|[k y] s IH]; intros seen; cbn; [constructor|]. match goal with |- context [if ?b then _ else _] => destruct b end; [apply IH|]. cbn. constructor; [|apply IH].
  intros K. apply in_map_iff in K as [[a b] [E K]]. cbn in E. subst a. apply added_in in K as [_ K]. apply K. now left.
Qed.
Lemma nodup_app : forall A (a b : list A), NoDup a -> NoDup b -> (forall x, In x a -> ~ In x b) -> NoDup (a ++ b).
Proof.
  intros A a b H K D. induction H as [|x a N H IH]; cbn; [exact K|]. constructor.
  - rewrite in_app_iff. intros [Q|Q]; [contradiction|]. apply (D x); [now left|exact Q].
  - apply IH. intros y Hy. apply D. now right.
Qed.
Lemma joins_tidy : forall x y z, joins x y z -> tidy x -> tidy y -> tidy z.
Proof.
  intros x. induction x as [a|a|a|a|m IH|a] using value_rect2; intros y z J Tx Ty; inversion J; subst; try constructor; try assumption.
  - intros q Hq. destruct Hq as [<-|[]]. assumption.
  - inversion Ty; assumption.
  - match goal with Hj : joins_members _ _ _ |- _ => rename Hj into JM end. inversion Tx as [| | | |? N T|]; subst. inversion Ty as [| | | |? N2 T2|]; subst.
    assert (Nm : map fst d' = map fst m) by (clear -JM; induction JM; cbn; congruence).
    rewrite map_app. apply nodup_app; [now rewrite Nm|apply added_nodup|]. intros k K1 K2. apply in_map_iff in K2 as [[u v] [E K2]]. cbn in E. subst u.
    apply added_in in K2 as [_ K2]. apply K2. now rewrite <- Nm.
  - match goal with Hj : joins_members _ _ _ |- _ => rename Hj into JM end. inversion Tx as [| | | |? N T|]; subst. inversion Ty as [| | | |? N2 T2|]; subst.
    intros k v K. apply in_app_iff in K as [K|K]; [|apply added_in in K as [K _]; eauto]. clear N J Tx.
    induction JM as [s|s n0 x0 y0 z0 d d' Mm J JM IHJ|s n0 x0 d d' Nn JM IHJ]; [contradiction| |].
    + inversion IH as [|? ? I1 I2]; subst. destruct K as [K|K].
      * injection K as <- <-. apply (I1 y0); [exact J| |].
        -- apply (T n0). now left.
        -- destruct Mm as [l [r [E _]]]. apply (T2 n0). rewrite E. apply in_app_iff. right. now left.
      * apply IHJ; auto. intros. eapply T. right. eassumption.
    + inversion IH as [|? ? I1 I2]; subst. destruct K as [K|K].
      * injection K as <- <-. apply (T n0). now left.
      * apply IHJ; auto. intros. eapply T. right. eassumption.
  - inversion Tx; inversion Ty; subst. intros q Hq. apply in_app_iff in Hq as [Hq|Hq]; auto.
  - inversion Tx; subst. intros q Hq. apply in_app_iff in Hq as [Hq|[<-|[]]]; auto.
  - inversion Tx; subst. assumption.
Qed.
Lemma effect_tidy : forall o old x new, effect o old x new -> (forall y, old = Some y -> tidy y) -> tidy x -> tidy new.
Proof.
  intros o old x new E To Tx.
  destruct E; try assumption; try constructor; try (now inversion Tx); try (intros q Hq; contradiction).
  - assert (T := To _ eq_refl). inversion T; inversion Tx; subst. intros q Hq. apply in_app_iff in Hq as [Hq|Hq]; auto.
  - intros q [<-|[]]. assumption.
  - assert (T := To _ eq_refl). inversion T; subst. intros q Hq. apply in_app_iff in Hq as [Hq|[<-|[]]]; auto.
  - intros q [<-|[]]. assumption.
  - assert (T := To _ eq_refl). now inversion T.
  - exact (joins_tidy _ _ _ H (To _ eq_refl) Tx).
Qed.
Lemma pieces_tidy : forall v ps, pieces v ps -> tidy v -> Forall tidy ps.
Proof.
  intros v ps H T. destruct H.
  - repeat constructor.
  - constructor; [exact T|constructor].
  - apply Forall_forall. intros y Hy. apply in_map_iff in Hy as [s [<- _]]. constructor.
  - inversion T; subst. apply Forall_forall. intros y Hy. apply in_map_iff in Hy as [s [<- Hs]]. auto.
Qed.
Lemma gathers_tidy : forall st l vs, Forall neat st -> gathers st l vs -> Forall tidy vs.
Proof.
  intros st l vs F H. induction H as [|raw x r l R H IH|parent n m v ps r l Nm Sv Ps H IH]; [constructor|constructor; [constructor|exact IH]|].
  apply Forall_app. split; [|exact IH]. apply (pieces_tidy v); [exact Ps|]. apply (neat_sees (if parent then tl st else st) m); [|exact Sv].
  destruct parent; [now apply tl_neat|exact F].
Qed.
Lemma evaluates_tidy : forall st rh x, Forall neat st -> evaluates st rh x -> tidy x.
Proof.
  intros st rh x F H. destruct H as [raw x R|z|b|parent n m x Nm Sx|l xs G|l ms N G]; try constructor.
  - apply (neat_sees (if parent then tl st else st) m); [|exact Sx]. destruct parent; [now apply tl_neat|exact F].
  - intros m Hm. apply gathers_tidy in G; [|exact F]. rewrite Forall_forall in G. apply G. now apply in_map.
Qed.
Lemma elements_minus_nil : forall st old v, store_array st Minus old [] = Good v -> exists y, old = Some y /\ (v = y \/ v = VStrs [] \/ exists b, v = VStructs b /\ y = VStructs b).
Proof.
  intros st old v H. destruct old as [[a|a|a|[|u a]|a|[|u a]]|]; cbn in H; try discriminate; injection H as <-; eauto 9.
Qed.
Lemma any_tidy : forall st o old rh p, Forall neat st -> (forall y, old = Some y -> tidy y) -> store_any st o old rh = Good p -> tidy (snd p).
Proof.
  intros st o old rh p F To H.
  assert (D : (o = Minus -> rh <> RArray []) \/ (o = Minus /\ rh = RArray [])).
  { destruct o; try (left; intros; discriminate). destruct rh as [raw|z|b|pa n|[|e l]|b]; try (left; intros; discriminate). now right. }
  destruct D as [D|[-> ->]].
  - apply any_only in H as [x [Ev Ef]]; [|exact D]. apply (effect_tidy _ _ _ _ Ef); [exact To|]. now apply (evaluates_tidy st rh).
  - cbn [store_any] in H. apply bind_good in H as [v [H1 H]]. injection H as <-. cbn [snd]. apply elements_minus_nil in H1 as [y [E [->|[->|[b [-> ->]]]]]]; subst; auto. constructor.
Qed.

(** * Steps *)
Lemma upd_neat : forall i g st, Forall neat st -> (forall f, neat f -> neat (g f)) -> Forall neat (upd_nth i g st).
Proof. intros i g st F H. apply upd_nth_all; assumption. Qed.
Lemma note_neat : forall n d st, Forall neat st -> Forall neat (note n d st).
Proof. intros n d st F. destruct F as [|f st Hf F]; cbn; [constructor|]. constructor; assumption. Qed.
Lemma refreeze_neat : forall k p st, Forall neat st -> Forall neat (refreeze k p st).
Proof.
  intros k p st F. rewrite refreeze_eq. apply upd_neat; [exact F|]. intros f [N T]. unfold rf. split; cbn.
  - assert (E : map vname (upd_var (snd p) (freeze_by k) (vars f)) = map vname (vars f)).
    { clear. induction (vars f) as [|a l IH]; cbn; [reflexivity|]. destruct (same (snd p) (vname a)); cbn; congruence. } now rewrite E.
  - intros v Hv. assert (Q : exists u, In u (vars f) /\ val v = val u).
    { clear -Hv. induction (vars f) as [|a l IH]; cbn in Hv; [contradiction|]. destruct (same (snd p) (vname a)); destruct Hv as [<-|Hv].
      - exists a. split; [now left|reflexivity].
      - exists v. split; [now right|reflexivity].
      - exists a. split; [now left|reflexivity].
      - destruct (IH Hv) as [u [U1 U2]]. exists u. split; [now right|exact U2]. }
    destruct Q as [u [U1 U2]]. rewrite U2. auto.
Qed.
Lemma fold_neat : forall k (l : list (str * (nat * str))) st, Forall neat st -> Forall neat (fold_left (fun st q => refreeze k (snd q) st) l st).
Proof. intros k l. induction l as [|q l IH]; intros st F; cbn [fold_left]; [exact F|]. apply IH. now apply refreeze_neat. Qed.
Lemma old_tidy : forall n d st y, Forall neat st -> old_value n d st = Some y -> tidy y.
Proof.
  intros n d st y F H. unfold old_value in H. destruct d as [i|]; cbn [get_var] in H.
  - destruct (nth_error st i) as [f|] eqn:E; [|discriminate]. apply nth_error_In in E. rewrite Forall_forall in F. apply F in E. destruct (local n f) as [v|] eqn:Lo; [|discriminate].
    injection H as <-. apply local_in in Lo. now apply (proj2 E).
  - destruct (lookup n st) as [[i v]|] eqn:E; [|discriminate]. injection H as <-. now apply (neat_lookup st n i).
Qed.
Definition keeps (body : list stmt -> state -> res state) : Prop := forall b s s', body b s = Good s' -> neat_all s -> neat_all s'.
Lemma declare_neat : forall body n d o rh s s', keeps body -> declare body n d o rh s = Good s' -> neat_all s -> neat_all s'.
Proof.
  intros body n d o rh s s' Kb H F. unfold neat_all in *.
  destruct rh as [raw|z|b|pa m|l|b]; [| | | | |].
  6: { cbn [declare] in H. destruct o; try discriminate. destruct (match old_value n d (stack s) with None => true | _ => _ end); [|discriminate].
    apply bind_good in H as [s1 [H1 H]]. apply (Kb b _ s1) in H1; [|unfold neat_all; cbn [stack with_stack]; constructor; [apply neat_fresh|exact F]]. unfold neat_all in H1.
    destruct (stack s1) as [|top rest]; [discriminate|]. inversion H1 as [|? ? [N T] F2]; subst. destruct (nth_error rest (at_ d)) as [f|]; [|discriminate].
    assert (Ty : tidy (VStruct (map (fun v => (vname v, val v)) (vars top)))).
    { constructor; [now rewrite map_map|]. intros k x Hx. apply in_map_iff in Hx as [v [E Hv]]. injection E as <- <-. auto. }
    destruct (local n f) as [[vn [] vf]|]; try discriminate; injection H as <-; cbn [stack with_stack]; unfold set_var; apply upd_neat; try exact F2; intros g Hg; now apply put_neat. }
  all: rewrite declare_any in H by discriminate; apply bind_good in H as [p [H1 H]]; injection H as <-; cbn [stack with_stack];
    (apply any_tidy in H1; [|exact F|intros y Hy; now apply (old_tidy n d (stack s))]); unfold set_var;
    destruct (fst p); (apply upd_neat; [exact F|]); intros g Hg; first [now apply swap_neat|now apply put_neat].
Qed.
Lemma import_neat : forall sk m f, neat f -> tidy (VStruct m) -> neat (import sk m f).
Proof.
  intros sk m f Nf T. unfold import.
  set (now := fix now (seen : bool) (m : list (str * value)) (f : frame) : frame := match m with [] => f | (k, x) :: r => if negb seen && _ then now true r f else now seen r (put_frame k x f) end).
  inversion T as [| | | |? Nd T1|]; subst.
  assert (A : forall m seen f, neat f -> (forall n x, In (n, x) m -> tidy x) -> neat (now seen m f)).
  { clear. induction m as [|[k x] m IH]; intros seen f C Tm; cbn [now]; [auto|]. fold now.
    destruct (negb seen && _); (apply IH; [|intros n y Hy; apply (Tm n); now right]); [exact C|]. apply put_neat; [exact C|]. apply (Tm k). now left. }
  assert (Q := A m false f Nf T1). destruct sk as [n|]; [|exact Q]. destruct (assoc n m) as [x|] eqn:E; [|exact Q]. cbn [fold_left fst snd].
  apply put_neat; [exact Q|]. apply assoc_in in E. now apply (T1 n).
Qed.
Lemma args_neat : forall ps args f st f', neat f -> Forall neat st -> arguments ps args f st = Good f' -> neat f'.
Proof.
  induction ps as [|p ps IH]; intros args f st f' Nf F H; cbn [arguments] in H; [now injection H as <-|].
  destruct args as [|a args]; [now injection H as <-|]. apply bind_good in H as [v [H1 H]]. apply IH in H; [exact H| |exact F]. apply put_neat; [exact Nf|].
  destruct a as [raw|z|b|pa n].
  - apply bind_good in H1 as [x [_ H1]]. injection H1 as <-. constructor.
  - injection H1 as <-. constructor.
  - injection H1 as <-. constructor.
  - apply bind_good in H1 as [m [_ H1]]. unfold source in H1. destruct (lookup m (if pa then tl (f :: st) else f :: st)) as [[i w]|] eqn:E; [|discriminate]. injection H1 as <-.
    apply (neat_lookup _ _ _ _) in E; [exact E|]. destruct pa; [exact F|now constructor].
Qed.
Lemma loop_neat : forall h i f rest f', neat f -> Forall neat rest -> loop_vars h i f rest = Good f' -> neat f'.
Proof.
  induction h as [|[x [k a]] h IH]; intros i f rest f' Nf F H; cbn [loop_vars] in H; [now injection H as <-|].
  destruct (get_var a (Some k) rest) as [v|] eqn:E; [|discriminate]. apply bind_good in H as [e [H1 H]]. apply IH in H; [exact H| |exact F]. apply put_neat; [exact Nf|].
  assert (T : tidy (val v)) by (apply (old_tidy a (Some k) rest); [exact F|]; unfold old_value; now rewrite E).
  destruct (val v); cbn [item] in H1; try discriminate.
  - destruct (nth_error l i); [|discriminate]. injection H1 as <-. constructor.
  - destruct (nth_error l i) eqn:El; [|discriminate]. injection H1 as <-. inversion T; subst. apply nth_error_In in El. auto.
Qed.
Lemma iterate_neat : forall body b h n i s s', keeps body -> iterate (body b) h n i s = Good s' -> neat_all s -> neat_all s'.
Proof.
  intros body b h n. induction n as [|n IH]; intros i s s' Kb H F; cbn [iterate] in H; [now injection H as <-|].
  apply bind_good in H as [f [H1 H]]. apply bind_good in H as [s1 [H2 H]]. apply IH in H; [exact H|exact Kb|]. apply loop_neat in H1; [|apply neat_fresh|exact F].
  apply (Kb _ _ s1) in H2; [|unfold neat_all; cbn [stack with_stack]; constructor; assumption]. unfold neat_all, pop, with_stack. cbn [stack]. now apply tl_neat.
Qed.
Lemma step_neat : forall body1 body2 x s s', keeps body1 -> keeps body2 -> step body1 body2 x s = Good s' -> neat_all s -> neat_all s'.
Proof.
  intros body1 body2 x s s' K1 K2 H F.
  assert (Fi : neat_all (with_stack (fresh :: stack s) s)) by (constructor; [apply neat_fresh|exact F]).
  destruct x as [parent n o r|o r|b|parent n|raw|negated n b|h b|parent n|props b|f ps b|f args]; cbn [step] in H.
  - apply bind_good in H as [m [_ H]]. destruct parent.
    + destruct (parent_decl m (stack s)) as [[i v]|]; [|discriminate]. destruct (0 <? frozen v)%N; [discriminate|]. apply declare_neat in H; [exact H|exact K1|]. now apply note_neat.
    + apply declare_neat in H; [exact H|exact K1|]. now apply note_neat.
  - destruct (stack s) as [|[vs [[n d]|]] t] eqn:E; try discriminate. apply declare_neat in H; [exact H|exact K1|exact F].
  - apply bind_good in H as [s1 [H1 H]]. injection H as <-. apply (K1 _ _ s1) in H1; [|exact Fi]. unfold neat_all, pop, with_stack. cbn [stack]. now apply tl_neat.
  - apply bind_good in H as [m [_ H]]. destruct (if parent then _ else _) as [[i v]|]; [|discriminate]. injection H as <-. exact F.
  - apply bind_good in H as [m [_ H]]. injection H as <-. exact F.
  - apply bind_good in H as [m [_ H]]. destruct (lookup m (fresh :: stack s)) as [[i v]|]; [|discriminate]. destruct (val v); try discriminate.
    destruct (xorb negated b0); [|now injection H as <-]. apply bind_good in H as [s1 [H1 H]]. injection H as <-. apply (K1 _ _ s1) in H1; [|exact Fi]. unfold neat_all, pop, with_stack. cbn [stack]. now apply tl_neat.
  - apply bind_good in H as [p [_ H]]. destruct (snd p) as [[|len]|]; try (now injection H as <-). apply bind_good in H as [s1 [H1 H]]. injection H as <-.
    apply (iterate_neat body2 b) in H1; [|exact K2|]. 
    + unfold neat_all, pop, with_stack. cbn [stack]. apply tl_neat. now apply fold_neat.
    + unfold neat_all. cbn [stack with_stack]. apply fold_neat. exact Fi.
  - apply bind_good in H as [m [_ H]]. destruct (if parent then _ else _) as [[i v]|] eqn:E; [|discriminate]. destruct (val v) eqn:V; try discriminate. injection H as <-.
    assert (T : tidy (VStruct m0)).
    { rewrite <- V. destruct parent.
      - unfold parent_decl2 in E. destruct (lookup m (tl (tl (fresh :: stack s)))) as [[j w]|] eqn:E2; [|discriminate]. injection E as _ <-. apply neat_lookup in E2; [exact E2|].
        cbn [tl]. now apply tl_neat.
      - apply neat_lookup in E; [exact E|exact Fi]. }
    unfold neat_all in *. cbn [stack with_stack]. destruct (stack s) as [|g t]; [constructor|]. inversion F; subst. constructor; [now apply import_neat|assumption].
  - apply bind_good in H as [s1 [H1 H]]. injection H as <-. apply (K1 _ _ s1) in H1; [|exact Fi]. unfold neat_all, pop, say, with_stack. cbn [stack]. now apply tl_neat.
  - destruct (assoc f (funs s)); [discriminate|]. destruct (distinct ps); [|discriminate]. injection H as <-. exact F.
  - destruct (assoc f (funs s)) as [[ps b]|]; [|discriminate]. destruct (_ =? _); [|discriminate]. apply bind_good in H as [top [H0 H]]. apply bind_good in H as [s1 [H1 H]].
    injection H as <-. exact F.
Qed.
Lemma parse_neat : forall r, keeps (parse r).
Proof.
  assert (Both : forall r, keeps (parse r) /\ keeps (parse (pred r))).
  { induction r as [|r [I1 I2]].
    - split; intros b s s' H; discriminate.
    - split; [|exact I1]. intros b. induction b as [|x b IHb]; intros s s' H F; [rewrite parse_nil in H; now injection H as <-|].
      rewrite parse_cons in H. apply bind_good in H as [s1 [H1 H]]. apply IHb in H; [exact H|]. now apply (step_neat (parse r) (parse (pred r)) x s). }
  intros r. apply Both.
Qed.
Lemma import_values : forall sk m f, NoDup (map fst m) ->
  (forall k x, In (k, x) m -> exists v, local k (import sk m f) = Some v /\ val v = x) /\
  (forall k, ~ In k (map fst m) -> local k (import sk m f) = local k f).
Proof.
  intros sk m f Nd. unfold import.
  set (now := fix now (seen : bool) (m : list (str * value)) (f : frame) : frame := match m with [] => f | (k, x) :: r => if negb seen && _ then now true r f else now seen r (put_frame k x f) end).
  assert (Out : forall m seen f k, ~ In k (map fst m) -> local k (now seen m f) = local k f).
  { clear. induction m as [|[k x] m IH]; intros seen f j Nj; cbn [now]; [auto|]. fold now. cbn in Nj.
    destruct (negb seen && _); rewrite IH by tauto; [reflexivity|]. apply local_put_other. intros ->. apply Nj. now left. }
  assert (In_ : forall m seen f k x, NoDup (map fst m) -> In (k, x) m -> (seen = true \/ sk <> Some k) -> exists v, local k (now seen m f) = Some v /\ val v = x).
  { clear -Out. induction m as [|[j y] m IH]; intros seen f k x Nd H Ns; [contradiction|]. cbn [now]. fold now. cbn in Nd. inversion Nd as [|? ? Nj Nd']; subst. destruct H as [H|H].
    - injection H as -> ->. destruct (negb seen && match sk with Some n => same k n | None => false end) eqn:E.
      + exfalso. apply andb_true_iff in E as [E1 E2]. destruct Ns as [->|Ns]; [discriminate|]. destruct sk as [n|]; [|discriminate]. apply same_iff in E2. subst. congruence.
      + rewrite Out by exact Nj. apply local_put_same.
    - destruct (negb seen && match sk with Some n => same j n | None => false end); apply IH; auto. }
  destruct sk as [n|].
  - destruct (assoc n m) as [z|] eqn:E.
    + cbn [fold_left fst snd]. assert (Iz := assoc_in _ _ _ _ E). split.
      * intros k x H. destruct (list_eq_dec ascii_dec k n) as [->|Nk].
        -- assert (x = z); [|subst; apply local_put_same].
           clear -Nd H Iz. induction m as [|[a b] m IH]; [contradiction|]. cbn in Nd. inversion Nd as [|? ? N1 N2]; subst.
           destruct H as [H|H], Iz as [K|K]; [congruence|injection H as -> ->|injection K as -> ->|auto].
           ++ exfalso. apply N1. apply in_map_iff. exists (n, z). auto.
           ++ exfalso. apply N1. apply in_map_iff. exists (n, x). auto.
        -- rewrite local_put_other by exact Nk. apply In_; auto. right. congruence.
      * intros k H. rewrite local_put_other; [now apply Out|]. intros ->. apply H. apply in_map_iff. exists (n, z). auto.
    + cbn [fold_left]. split; [|intros k H; now apply Out]. intros k x H. apply In_; auto. right. intros K. injection K as ->.
      clear -E H. induction m as [|[a b] m IH]; [contradiction|]. cbn in E. destruct (same k a) eqn:Q; [discriminate|]. destruct H as [H|H]; [|auto].
      injection H as -> ->. now rewrite same_refl in Q.
  - cbn [fold_left]. split; [|intros k H; now apply Out]. intros k x H. apply In_; auto. right. discriminate.
Qed.
