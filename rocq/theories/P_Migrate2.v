(** Proofs about the migration, continued: one node, the whole graph. *)
From Coq Require Import List Arith NArith Bool Ascii Lia.
From Verif Require Import M_Path M_Names M_Migrate S_Migrate P_Migrate.
Import ListNotations.
Open Scope nat_scope.

Lemma ext_set : forall s g v i n n', ext s (g, v) -> ~ In i (snd s) -> nth_error g i = Some n -> kept n n' ->
  ext s (set_nth i n' g, v).
Proof.
  intros s g v i n n' [L V K S] Hi Hn Kn. cbn in *. pose proof (nth_lt _ _ _ _ Hn) as Lt. constructor; cbn.
  - now rewrite set_nth_length.
  - exact V.
  - intros j m Hm. destruct (Nat.eq_dec j i) as [->|Ne].
    + destruct (K _ _ Hm) as (m' & Hm' & Km). rewrite Hn in Hm'. injection Hm' as <-.
      exists n'. rewrite set_nth_same by exact Lt. split; [reflexivity|]. eauto using kept_trans.
    + rewrite set_nth_other by exact Ne. now apply K.
  - intros j m Hj Hm. rewrite set_nth_other; [now apply S|]. intros ->. contradiction.
Qed.

Lemma set_kept : forall g i n n', nth_error g i = Some n -> kept n n' ->
  forall j m, nth_error g j = Some m -> exists m', nth_error (set_nth i n' g) j = Some m' /\ kept m m'.
Proof.
  intros g i n n' Hn Kn j m Hm. destruct (Nat.eq_dec j i) as [->|Ne].
  - rewrite set_nth_same by (now apply nth_lt in Hn). exists n'. split; [reflexivity|]. congruence.
  - rewrite set_nth_other by exact Ne. exists m. split; [exact Hm|apply kept_refl].
Qed.

Section S.
Context (R : str -> nat) (HR : caseless R) (init : initialiser) (old : graph).
Context (Hinit : prepares R old init) (Hod : ordered_dyn R old).

Lemma inv_start : forall P g v i n, Inv R old P (g, v) -> ~ In i v -> nth_error g i = Some n ->
  Inv R old (i :: P) (g, i :: v).
Proof.
  intros P g v i n [O Pv Vl Nd] Hi Hn. cbn in *. constructor; cbn; auto.
  - intros j [<-|Hj]; [now left|]. right. now apply Pv.
  - intros j [<-|Hj]; [now apply nth_lt in Hn|]. now apply Vl.
  - intros j m Hm. destruct (Nd _ _ Hm) as [F|(Hv & Hp & D & C)]; [now left|]. right.
    split; [now right|]. split; [intros [->|H]; contradiction|]. split; [|exact C].
    intros d Hd. destruct (D d Hd) as [D1 D2]. split; [now right|]. intros [E|H]; [apply Hi; rewrite E; exact D1|contradiction].
Qed.

Lemma inv_drop : forall P i s, Inv R old (i :: P) s -> Inv R old P s.
Proof.
  intros P i s [O Pv Vl Nd]. constructor; auto.
  - intros j Hj. apply Pv. now right.
  - intros j m Hm. destruct (Nd _ _ Hm) as [F|(Hv & Hp & D & C)]; [now left|]. right.
    split; [exact Hv|]. split; [intros H; apply Hp; now right|]. split; [|exact C].
    intros d Hd. destruct (D d Hd) as [D1 D2]. split; [exact D1|]. intros H. apply D2. now right.
Qed.

(** node [i], in progress, is replaced *)
Lemma inv_set : forall P i g v n n', Inv R old (i :: P) (g, v) -> nth_error g i = Some n -> kept n n' ->
  (fresh n' \/ (~ In i P /\ done_deps v (i :: P) n' /\
     exists h o, nth_error old h = Some o /\ carried old (set_nth i n' g) o n')) ->
  (fresh n' -> Inv R old (i :: P) (set_nth i n' g, v)) /\ Inv R old P (set_nth i n' g, v).
Proof.
  intros P i g v n n' I Hn Kn Hn'. destruct I as [O Pv Vl Nd]. cbn in *.
  assert (Lt : i < length g) by (now apply nth_lt in Hn).
  assert (O' : ordered R (set_nth i n' g)).
  { apply (ordered_kept R g); rewrite ?set_nth_length; auto. now apply (set_kept g i n). }
  assert (V' : forall j, In j v -> j < length (set_nth i n' g)) by (intros j Hj; rewrite set_nth_length; auto).
  assert (Oth : forall j m, j <> i -> nth_error g j = Some m -> fresh m \/
      (In j v /\ ~ In j (i :: P) /\ done_deps v (i :: P) m /\
       exists h o, nth_error old h = Some o /\ carried old (set_nth i n' g) o m)).
  { intros j m Ne Hm. destruct (Nd _ _ Hm) as [F|(Hv & Hp & D & h & o & Ho & C)]; [now left|]. right.
    split; [exact Hv|]. split; [exact Hp|]. split; [exact D|]. exists h, o. split; [exact Ho|].
    apply (carried_ext old g (set_nth i n' g) v (i :: P)); auto.
    - now apply (set_kept g i n).
    - intros k mk _ Hk Hmk. rewrite set_nth_other; [exact Hmk|]. intros ->. apply Hk. now left. }
  split.
  - intros F. constructor; cbn; auto. intros j m Hm. destruct (Nat.eq_dec j i) as [->|Ne].
    + rewrite set_nth_same in Hm by exact Lt. injection Hm as <-. now left.
    + rewrite set_nth_other in Hm by exact Ne. now apply Oth.
  - constructor; cbn; auto.
    + intros j Hj. apply Pv. now right.
    + intros j m Hm. destruct (Nat.eq_dec j i) as [->|Ne].
      * rewrite set_nth_same in Hm by exact Lt. injection Hm as <-. destruct Hn' as [F|(Np & D & C)]; [now left|]. right.
        split; [apply Pv; now left|]. split; [exact Np|]. split; [|exact C].
        intros d Hd. destruct (D d Hd) as [D1 D2]. split; [exact D1|]. intros H. apply D2. now right.
      * rewrite set_nth_other in Hm by exact Ne. destruct (Oth j m Ne Hm) as [F|(Hv & Hp & D & C)]; [now left|]. right.
        split; [exact Hv|]. split; [intros H; apply Hp; now right|]. split; [|exact C].
        intros d Hd. destruct (D d Hd) as [D1 D2]. split; [exact D1|]. intros H. apply D2. now right.
Qed.

Lemma migrate_good : forall fuel, good R old (migrate_node fuel init old).
Proof.
  induction fuel as [|fuel Hrec]; intros P s i hint s' n H I Hn Hp Hh; [discriminate H|].
  cbn [migrate_node] in H. destruct (memb i (snd s)) eqn:Em.
  { injection H as <-. split; [exact I|]. split; [apply ext_refl|]. apply memb_In in Em. split; [exact Em|].
    intros HP. specialize (Hp i n HP Hn). lia. }
  apply memb_nIn in Em. rewrite Hn in H. destruct s as [g v]. cbn [fst snd] in *.
  assert (NP : ~ In i P) by (intros HP; apply Em; exact (i_prog _ _ _ _ I i HP)).
  assert (X0 : ext (g, v) (g, i :: v)).
  { constructor; cbn; auto. - intros j Hj. now right. - intros j m Hm. exists m. auto using kept_refl. }
  pose proof (inv_start P g v i n I Em Hn) as I0.
  destruct (N.eqb_spec (type n) file_type) as [Et|Et].
  { injection H as <-. split; [exact (inv_drop _ _ _ I0)|]. split; [exact X0|]. split; [now left|exact NP]. }
  assert (Hdeps : forall d, In d (pre n ++ stat n) -> exists m, nth_error g (to d) = Some m /\
     forall p q, In p (i :: P) -> nth_error g p = Some q -> R (name m) < R (name q)).
  { intros d Hd. destruct (i_ord _ _ _ _ I i n Hn d Hd) as (m & Hm & Lt). exists m. split; [exact Hm|].
    intros p q [<-|Hq] Hpq.
    - rewrite Hn in Hpq. injection Hpq as <-. exact Lt.
    - specialize (Hp p q Hq Hpq). lia. }
  destruct (each (migrate_node fuel init old) (pre n) (g, i :: v)) as [s1| |] eqn:E1; try discriminate H. cbn [bind] in H.
  destruct (each (migrate_node fuel init old) (stat n) s1) as [s2| |] eqn:E2; try discriminate H. cbn [bind] in H.
  destruct (each_good R old _ Hrec (pre n) (i :: P) (g, i :: v) s1 E1 I0) as (I1 & X1 & V1).
  { intros d Hd. apply Hdeps. rewrite in_app_iff. now left. }
  destruct (each_good R old _ Hrec (stat n) (i :: P) s1 s2 E2 I1) as (I2 & X2 & V2).
  { intros d Hd. destruct (Hdeps d) as (m & Hm & Hq); [rewrite in_app_iff; now right|].
    destruct (e_kept _ _ X1 _ _ Hm) as (m1 & Hm1 & Km). exists m1. split; [exact Hm1|].
    intros p q Hpp Hpq. rewrite (k_name _ _ Km). pose proof (i_prog _ _ _ _ I0 p Hpp) as Hv.
    destruct (nth_error g p) as [q0|] eqn:E0.
    - pose proof (e_same _ _ X1 p q0 Hv E0) as Eq. cbn in Eq. rewrite Eq in Hpq. injection Hpq as <-. now apply (Hq p).
    - apply nth_error_None in E0. apply (i_vis _ _ _ _ I0) in Hv. cbn in Hv. lia. }
  assert (X02 : ext (g, i :: v) s2) by eauto using ext_trans.
  assert (Xs2 : ext (g, v) s2) by eauto using ext_trans.
  assert (Hi2 : In i (snd s2)) by (apply (e_vis _ _ X02); now left).
  assert (Hn2 : nth_error (fst s2) i = Some n) by (apply (e_same _ _ X02); [now left|exact Hn]).
  assert (Stop : Inv R old P s2 /\ ext (g, v) s2 /\ In i (snd s2) /\ ~ In i P).
  { split; [exact (inv_drop _ _ _ I2)|]. auto. }
  assert (Dd : done_deps (snd s2) (i :: P) n).
  { intros d Hd. rewrite in_app_iff in Hd. destruct Hd as [Hd|Hd]; [|now apply V2].
    destruct (V1 d Hd) as [Hv Np]. split; [now apply (e_vis _ _ X2)|exact Np]. }
  destruct (match hint with Some h => Some h | None => find_node old (name n) end) as [h|] eqn:Eh;
    [|injection H as <-; exact Stop].
  assert (Hname : exists o, nth_error old h = Some o /\ equals_i (name o) (name n) = true \/
                            nth_error old h = Some o /\ equals_i (name n) (name o) = true).
  { destruct hint as [h0|].
    - injection Eh as ->. destruct (Hh h eq_refl) as (o & Ho & Eo). exists o. now right.
    - apply find_some in Eh as (o & Ho & Eo). exists o. now left. }
  destruct Hname as (o & Hname).
  assert (Ho : nth_error old h = Some o) by tauto.
  assert (En : equals_i (name n) (name o) = true).
  { destruct Hname as [[_ E]|[_ E]]; [|exact E]. clear -E. revert E. generalize (name o) (name n).
    induction s as [|x s IH]; intros [|y t] E; cbn in *; auto.
    destruct (Ascii.eqb_spec (lower_char x) (lower_char y)) as [El|El]; [|discriminate].
    rewrite El, Ascii.eqb_refl. destruct (Ascii.eqb_spec x nul) as [->|Nx].
    - destruct (Ascii.eqb_spec y nul) as [->|Ny]; [reflexivity|]. exfalso. apply Ny. clear -El.
      destruct y as [[][][][][][][][]]; vm_compute in El; try discriminate El; reflexivity.
    - destruct (Ascii.eqb_spec y nul) as [->|Ny]; [|now apply IH]. exfalso. apply Nx. clear -El.
      destruct x as [[][][][][][][][]]; vm_compute in El; try discriminate El; reflexivity. }
  rewrite Ho, Hn2 in H.
  destruct (N.eqb_spec (type o) (type n)) as [Et2|]; cbn [negb] in H; [|injection H as <-; exact Stop].
  destruct (fields_same (props o) (props n)) eqn:Efs; cbn [negb] in H; [|injection H as <-; exact Stop].
  destruct (deps_match old (fst s2) (pre o) (pre n)) eqn:Edp; cbn [negb] in H; [|injection H as <-; exact Stop].
  destruct (deps_match old (fst s2) (stat o) (stat n)) eqn:Eds; cbn [negb] in H; [|injection H as <-; exact Stop].
  apply (proj1 (proj2 same_agree)) in Efs. apply deps_match_state in Edp. apply deps_match_state in Eds.
  destruct s2 as [g2 v2]. cbn [fst snd] in *.
  set (n3 := set_stat (restamp (stat o) (stat n)) n) in *.
  assert (K3 : kept n n3) by (constructor; try reflexivity; [apply restamp_to|auto]).
  assert (Fr : fresh n).
  { destruct (i_node _ _ _ _ I i n Hn) as [F|[Hv _]]; [exact F|contradiction]. }
  assert (Fr3 : fresh n3) by exact Fr.
  pose proof (proj1 (inv_set P i g2 v2 n n3 I2 Hn2 K3 (or_introl Fr3)) Fr3) as I3.
  pose proof (ext_set (g, v) g2 v2 i n n3 Xs2 Em Hn2 K3) as X3.
  assert (L2 : i < length g2) by (now apply nth_lt in Hn2).
  assert (Hn3 : nth_error (set_nth i n3 g2) i = Some n3) by (now apply set_nth_same).
  destruct (dynamics (migrate_node fuel init old) init old (dyn o) (set_nth i n3 g2, v2) []) as [[s4 r]| |] eqn:E4;
    try discriminate H. cbn [bind fst snd] in H.
  destruct (dynamics_good R init old Hinit _ Hrec (dyn o) (i :: P) (set_nth i n3 g2, v2) [] [] s4 r E4 I3 (Forall2_nil _)) as (I4 & X4 & F4).
  { intros d Hd. destruct (Hod h o Ho d Hd) as (m & Hm & Lt). exists m. split; [exact Hm|].
    rewrite <- (HR _ _ En) in Lt. intros p q [<-|Hq] Hpq.
    - cbn in Hpq. rewrite Hn3 in Hpq. injection Hpq as <-. exact Lt.
    - destruct (nth_error g p) as [q0|] eqn:E0.
      + pose proof (e_same _ _ X3 p q0 (i_prog _ _ _ _ I p Hq) E0) as Eq. cbn in Eq, Hpq. rewrite Eq in Hpq. injection Hpq as <-.
        specialize (Hp p q0 Hq E0). lia.
      + apply nth_error_None in E0. pose proof (i_vis _ _ _ _ I p (i_prog _ _ _ _ I p Hq)) as Hv. cbn in Hv. lia. }
  assert (X04 : ext (g, v) s4) by eauto using ext_trans.
  assert (Hi4 : In i (snd s4)) by (apply (e_vis _ _ X4); exact Hi2).
  destruct r as [ds|].
  2:{ injection H as <-. split; [exact (inv_drop _ _ _ I4)|]. auto. }
  assert (Hn4 : nth_error (fst s4) i = Some n3) by (apply (e_same _ _ X4); [exact Hi2|exact Hn3]).
  rewrite Hn4 in H. injection H as <-. destruct s4 as [g4 v4]. cbn [fst snd] in *.
  specialize (F4 ds eq_refl). cbn [app] in F4.
  set (n5 := finish ds o n3) in *.
  assert (K5 : kept n3 n5) by (constructor; try reflexivity; intros x; now apply agree_untake).
  assert (D5 : done_deps v4 (i :: P) n5).
  { intros d Hd. assert (Hd' : exists d0, In d0 (pre n ++ stat n) /\ to d0 = to d).
    { rewrite in_app_iff in Hd. destruct Hd as [Hd|Hd].
      - exists d. rewrite in_app_iff. auto.
      - apply (in_map to) in Hd. unfold n5, n3 in Hd. cbn in Hd. rewrite restamp_to in Hd.
        apply in_map_iff in Hd as (d0 & E0 & Hd). exists d0. rewrite in_app_iff. auto. }
    destruct Hd' as (d0 & Hd0 & <-). destruct (Dd d0 Hd0) as [D1 D2]. split; [|exact D2]. now apply (e_vis _ _ X4). }
  split.
  2:{ split; [|auto]. apply (ext_set _ _ _ _ n3); auto. }
  apply (inv_set P i g4 v4 n3 n5 I4 Hn4 K5). right. split; [exact NP|]. split; [exact D5|].
  exists h, o. split; [exact Ho|].
  assert (St : forall d e, In d (pre n ++ stat n) -> same_state old g2 d e -> same_state old (set_nth i n5 g4) d e).
  { intros d e Hd (m' & m & H1 & H2). destruct (Dd d Hd) as [D1 D2]. exists m', m. split; [|exact H2].
    assert (Ne : to d <> i) by (intros Eq; apply D2; left; auto).
    rewrite set_nth_other by exact Ne. apply (e_same _ _ X4); [exact D1|]. cbn. now rewrite set_nth_other. }
  constructor; cbn [n5 n3 finish set_stat name type props pre stat dyn stamp cost]; auto.
  - now apply agree_take.
  - now apply results_take.
  - eapply Forall2_weaken; [|exact Edp]. intros a b Ha. apply St. rewrite in_app_iff. now left.
  - apply restamp_state. eapply Forall2_weaken; [|exact Eds]. intros a b Ha. apply St. rewrite in_app_iff. now right.
  - destruct Fr as [_ ->]. cbn [app]. eapply Forall2_weaken; [|exact F4].
    intros a b _ [(m' & m & H1 & H2 & H3 & H4) H5]. split; [|exact H5].
    destruct (set_kept g4 i n3 n5 Hn4 K5 _ _ H1) as (m2 & Hm2 & [Kn Kt _ _ _]). exists m2, m. rewrite Kn, Kt. auto.
Qed.

Lemma migrate_all_good : forall fuel is s s', migrate_all fuel init old is s = Done s' ->
  Inv R old [] s -> (forall i, In i is -> i < length (fst s)) ->
  Inv R old [] s' /\ ext s s' /\ incl is (snd s').
Proof.
  intros fuel. induction is as [|i is IH]; intros s s' H I Hi.
  - injection H as <-. split; [exact I|]. split; [apply ext_refl|intros x []].
  - cbn [migrate_all] in H. destruct (migrate_node fuel init old s i None) as [s1| |] eqn:E; try discriminate H. cbn [bind] in H.
    destruct (nth_error (fst s) i) as [n|] eqn:En; [|apply nth_error_None in En; specialize (Hi i (or_introl eq_refl)); lia].
    destruct (migrate_good fuel [] s i None s1 n E I En) as (I1 & X1 & V1 & _); [intros p m []|discriminate|].
    destruct (IH s1 s' H I1) as (I2 & X2 & V2).
    { intros j Hj. specialize (Hi j (or_intror Hj)). pose proof (e_len _ _ X1). lia. }
    split; [exact I2|]. split; [eauto using ext_trans|]. intros j [<-|Hj]; [now apply (e_vis _ _ X2)|now apply V2].
Qed.

Lemma migrate_sound : forall fuel new g', migrate fuel init old new = Done g' -> ordered R new ->
  (forall i n, nth_error new i = Some n -> fresh n) ->
  length new <= length g' /\
  (forall i n, nth_error new i = Some n -> exists n', nth_error g' i = Some n' /\ kept n n') /\
  (forall i n, nth_error g' i = Some n -> fresh n \/ exists h o, nth_error old h = Some o /\ carried old g' o n).
Proof.
  intros fuel new g' H O F. unfold migrate in H.
  destruct (migrate_all fuel init old (seq 0 (length new)) (new, [])) as [[g1 v1]| |] eqn:E; try discriminate H.
  injection H as <-. cbn.
  destruct (migrate_all_good fuel (seq 0 (length new)) (new, []) (g1, v1) E) as (I & X & _).
  - constructor; cbn; auto; [intros x []|intros x []|]. intros i n Hn. left. exact (F i n Hn).
  - intros i Hi. apply in_seq in Hi. cbn. lia.
  - split; [exact (e_len _ _ X)|]. split; [exact (e_kept _ _ X)|].
    intros i n Hn. destruct (i_node _ _ _ _ I i n Hn) as [Fn|(_ & _ & _ & C)]; [now left|now right].
Qed.
End S.
