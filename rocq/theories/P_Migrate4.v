(** Proofs about the migration: a graph that did not change is carried over as a whole. *)
From Coq Require Import List Arith NArith Bool Ascii Lia.
From Verif Require Import M_Path M_Names M_Migrate S_Migrate P_Migrate P_Migrate2 P_Migrate3.
Import ListNotations.
Open Scope nat_scope.

Lemma target_to : forall old g l l' x, map to l = map to l' -> Forall2 (same_target old g) l x -> Forall2 (same_target old g) l' x.
Proof.
  intros old g l l' x E F. revert l' E. induction F as [|d e l x H F IH]; intros [|d' l'] E; try discriminate E; [constructor|].
  cbn in E. injection E as E1 E2. constructor; [|now apply IH]. unfold same_target in *. now rewrite <- E1.
Qed.
Lemma target_kept : forall old g g' l x, (forall i n, nth_error g i = Some n -> exists n', nth_error g' i = Some n' /\ kept n n') ->
  Forall2 (same_target old g) l x -> Forall2 (same_target old g') l x.
Proof.
  intros old g g' l x K F. eapply Forall2_weaken; [|exact F]. intros a b _ (m' & m & H1 & H2 & H3 & H4).
  destruct (K _ _ H1) as (m2 & Hm2 & [Kn Kt _ _ _]). exists m2, m. rewrite Kn, Kt. auto.
Qed.
Lemma defined_kept : forall old g g' n n' o,
  (forall i n, nth_error g i = Some n -> exists n', nth_error g' i = Some n' /\ kept n n') -> kept n n' ->
  (agree_fields (props o) (props n) -> agree_fields (props o) (props n')) ->
  defined_as old g n o -> defined_as old g' n' o.
Proof.
  intros old g g' n n' o K [Kn Kt Kp Ks _] A (D1 & D2 & D3 & D4 & D5). unfold defined_as. rewrite Kn, Kt, Kp.
  split; [exact D1|]. split; [exact D2|]. split; [auto|]. split; [now apply (target_kept old g)|].
  apply (target_to old g' (stat n)); [now symmetry|]. now apply (target_kept old g).
Qed.
Lemma equals_i_sym : forall a b, equals_i a b = true -> equals_i b a = true.
Proof.
  induction a as [|x s IH]; intros [|y t] E; cbn in *; auto.
  destruct (Ascii.eqb_spec (lower_char x) (lower_char y)) as [El|El]; [|discriminate].
  rewrite El, Ascii.eqb_refl. destruct (Ascii.eqb_spec x nul) as [->|Nx].
  - destruct (Ascii.eqb_spec y nul) as [->|Ny]; [reflexivity|]. exfalso. apply Ny. clear -El.
    destruct y as [[][][][][][][][]]; vm_compute in El; try discriminate El; reflexivity.
  - destruct (Ascii.eqb_spec y nul) as [->|Ny]; [|now apply IH]. exfalso. apply Nx. clear -El.
    destruct x as [[][][][][][][][]]; vm_compute in El; try discriminate El; reflexivity.
Qed.

Section S.
Context (R : str -> nat) (HR : caseless R) (init : initialiser) (old : graph).
Context (Hinit : prepares R old init) (Hod : ordered_dyn R old).
Context (Hu : unique old) (Hb : files_bare old) (Hre : recreates old init).

Record Full (P : list nat) (s : mst) : Prop := {
  f_unch : unchanged old (fst s);
  f_done : forall i n, In i (snd s) -> ~ In i P -> nth_error (fst s) i = Some n ->
     exists h o, nth_error old h = Some o /\ name n = name o /\ stamp n = stamp o /\
       (type n = file_type \/ length (dyn n) = length (dyn o)) }.

Definition cgood (rec : mst -> nat -> option nat -> res mst) : Prop :=
  forall P s i hint n,
    Inv R old P s -> Full P s -> nth_error (fst s) i = Some n ->
    (forall p m, In p P -> nth_error (fst s) p = Some m -> R (name n) < R (name m)) ->
    (forall h, hint = Some h -> exists o, nth_error old h = Some o /\ equals_i (name n) (name o) = true) ->
    match rec s i hint with Done s' => Full P s' | Crash => False | NoFuel => True end.

Lemma each_full : forall rec, good R old rec -> cgood rec -> forall ds P s,
  Inv R old P s -> Full P s ->
  (forall d, In d ds -> exists n, nth_error (fst s) (to d) = Some n /\
     forall p m, In p P -> nth_error (fst s) p = Some m -> R (name n) < R (name m)) ->
  match each rec ds s with Done s' => Full P s' | Crash => False | NoFuel => True end.
Proof.
  intros rec Hg Hc. induction ds as [|d ds IH]; intros P s I F Hd; [exact F|]. cbn [each].
  destruct (Hd d (or_introl eq_refl)) as (n & Hn & Hp).
  assert (C := Hc P s (to d) None n I F Hn Hp). destruct (rec s (to d) None) as [s1| |] eqn:E; cbn [bind]; auto.
  2:{ apply C. discriminate. }
  destruct (Hg P s (to d) None s1 n E I Hn Hp) as (I1 & X1 & V1 & N1); [discriminate|].
  apply IH; [exact I1|apply C; discriminate|].
  intros d' Hd'. destruct (Hd d' (or_intror Hd')) as (n' & Hn' & Hp').
  destruct (e_kept _ _ X1 _ _ Hn') as (n1 & Hn1 & Kn). exists n1. split; [exact Hn1|].
  intros p m Hpp Hm. pose proof (i_prog _ _ _ _ I p Hpp) as Hv.
  destruct (nth_error (fst s) p) as [m0|] eqn:E0.
  - rewrite (k_name _ _ Kn). specialize (Hp' p m0 Hpp E0). rewrite (e_same _ _ X1 p m0 Hv E0) in Hm. injection Hm as <-. exact Hp'.
  - apply nth_error_None in E0. apply (i_vis _ _ _ _ I) in Hv. lia.
Qed.

(** the old node of a node is the only one *)
Lemma the_old : forall h h' o o' nm, nth_error old h = Some o -> nth_error old h' = Some o' ->
  equals_i (name o) nm = true -> nm = name o' -> o = o' /\ h = h'.
Proof. intros h h' o o' nm H1 H2 E ->. pose proof (Hu _ _ _ _ H1 H2 E) as <-. split; [congruence|reflexivity]. Qed.

Lemma dynamics_full : forall rec, good R old rec -> cgood rec -> forall hp op ip, nth_error old hp = Some op -> forall ds P s acc,
  Inv R old P s -> Full P s -> incl ds (dyn op) -> (exists np, nth_error (fst s) ip = Some np /\ name np = name op) ->
  (forall d, In d ds -> exists o, nth_error old (to d) = Some o /\
     forall p m, In p P -> nth_error (fst s) p = Some m -> R (name o) < R (name m)) ->
  match dynamics rec init old ds s acc with
  | Done (s', Some l) => Full P s' /\ length l = length acc + length ds
  | Done (_, None) => False | Crash => False | NoFuel => True end.
Proof.
  intros rec Hg Hc hp op ip Hop. induction ds as [|d ds IH]; intros P s acc I F Hsub Hpar Hd; [cbn; split; [exact F|lia]|]. cbn [dynamics].
  assert (Hsub' : incl ds (dyn op)) by (intros x Hx; apply Hsub; now right).
  assert (Pm : forall s1, ext s s1 -> exists np, nth_error (fst s1) ip = Some np /\ name np = name op).
  { intros s1 X. destruct Hpar as (np & Hnp & Enp). destruct (e_kept _ _ X _ _ Hnp) as (n1 & Hn1 & Kn). exists n1. split; [exact Hn1|]. rewrite (k_name _ _ Kn). exact Enp. }
  destruct (Hd d (or_introl eq_refl)) as (o & Ho & Hp). rewrite Ho.
  assert (Dm : forall s1, ext s s1 -> forall d', In d' ds -> exists o', nth_error old (to d') = Some o' /\
     forall p m, In p P -> nth_error (fst s1) p = Some m -> R (name o') < R (name m)).
  { intros s1 X d' Hd'. destruct (Hd d' (or_intror Hd')) as (o' & Ho' & Hp'). exists o'. split; [exact Ho'|].
    intros p m Hpp Hm. pose proof (i_prog _ _ _ _ I p Hpp) as Hv.
    destruct (nth_error (fst s) p) as [m0|] eqn:E0.
    - rewrite (e_same _ _ X p m0 Hv E0) in Hm. injection Hm as <-. now apply (Hp' p).
    - apply nth_error_None in E0. apply (i_vis _ _ _ _ I) in Hv. lia. }
  assert (Len : forall s1 j, match dynamics rec init old ds s1 (acc ++ [Dep j (seen d) (weak d)]) with
      | Done (s', Some l) => Full P s' /\ length l = length (acc ++ [Dep j (seen d) (weak d)]) + length ds
      | Done (_, None) => False | Crash => False | NoFuel => True end ->
      match dynamics rec init old ds s1 (acc ++ [Dep j (seen d) (weak d)]) with
      | Done (s', Some l) => Full P s' /\ length l = length acc + length (d :: ds)
      | Done (_, None) => False | Crash => False | NoFuel => True end).
  { intros s1 j H. destruct (dynamics rec init old ds s1 (acc ++ [Dep j (seen d) (weak d)])) as [[s' [l|]]| |]; auto.
    destruct H as [H1 H2]. split; [exact H1|]. rewrite H2, app_length. cbn. lia. }
  destruct (find_node (fst s) (name o)) as [j|] eqn:Ef.
  - apply find_some in Ef as (n & Hn & En). rewrite Hn.
    destruct (f_unch _ _ F j n Hn) as (h' & o' & Ho' & D1 & D2 & _). rewrite D1 in En.
    destruct (the_old h' (to d) o' o (name o) Ho' Ho En eq_refl) as [-> _]. rewrite D2, N.eqb_refl. cbn [negb].
    apply Len. apply IH; auto. apply (Dm s (ext_refl s)).
  - destruct s as [g v]. cbn [fst snd] in *. destruct (N.eqb_spec (type o) file_type) as [Et|Et].
    + apply Len.
      assert (Keep : forall j m, nth_error g j = Some m -> nth_error (g ++ [created o FNil]) j = Some m).
      { intros j m Hm. rewrite nth_error_app1; [exact Hm|]. now apply nth_lt in Hm. }
      assert (KK : forall i n, nth_error g i = Some n -> exists n', nth_error (g ++ [created o FNil]) i = Some n' /\ kept n n').
      { intros i n Hn. exists n. split; [now apply Keep|apply kept_refl]. }
      destruct (inv_grow R old P g v (g ++ [created o FNil]) I) as [I1 X1].
      * intros i n Hn dd Hdd. destruct (Nat.lt_ge_cases i (length g)) as [Lt|Ge].
        -- rewrite nth_error_app1 in Hn by exact Lt. destruct (i_ord _ _ _ _ I i n Hn dd Hdd) as (m & Hm & Hl).
           exists m. split; [|exact Hl]. now apply Keep.
        -- rewrite nth_error_app2 in Hn by exact Ge. destruct (i - length g) as [|[|k]]; try discriminate Hn.
           injection Hn as <-. destruct Hdd.
      * exact Keep.
      * intros j m Hm Ge. rewrite nth_error_app2 in Hm by exact Ge. destruct (j - length g) as [|[|k]]; try discriminate Hm.
        injection Hm as <-. now split.
      * rewrite app_length. lia.
      * apply IH; [exact I1| |exact Hsub'|apply (Pm _ X1)|apply (Dm _ X1)]. constructor; cbn [fst snd].
        -- intros i n Hn. destruct (Nat.lt_ge_cases i (length g)) as [Lt|Ge].
           ++ rewrite nth_error_app1 in Hn by exact Lt. destruct (f_unch _ _ F i n Hn) as (h' & o' & Ho' & D).
              exists h', o'. split; [exact Ho'|]. apply (defined_kept old g _ n n); auto using kept_refl.
           ++ rewrite nth_error_app2 in Hn by exact Ge. destruct (i - length g) as [|[|k]]; try discriminate Hn.
              injection Hn as <-. exists (to d), o. split; [exact Ho|]. destruct (Hb _ _ Ho Et) as (B1 & B2 & B3).
              split; [reflexivity|]. split; [reflexivity|]. split; [intros C; contradiction|]. rewrite B2, B3. split; constructor.
        -- intros i n Hi Np Hn. pose proof (i_vis _ _ _ _ I i Hi) as Lt. cbn in Lt. rewrite nth_error_app1 in Hn by exact Lt.
           now apply (f_done _ _ F i n).
    + assert (W : wanted old g (to d)).
      { destruct Hpar as (np & Hnp & Enp). exists hp, op, d, ip, np. repeat split; auto. apply Hsub. now left. }
      destruct (Hre g (to d) o Ho Et (f_unch _ _ F) Ef W) as (p & Ep & U). rewrite Ep.
      set (g1 := init (g ++ [created o p]) (length g)) in *.
      assert (Fo : from_old old (created o p)) by (exists (to d), o; repeat split; auto).
      destruct Hinit as [Po Pn Pa Pr].
      destruct (Pn g (created o p) Fo) as (n' & Hn' & Nn & Nt & Nf). fold g1 in Hn'.
      destruct (inv_grow R old P g v g1 I) as [I1 X1].
      * apply Pr; [exact Fo|]. exact (i_ord _ _ _ _ I).
      * intros j m Hm. now apply Po.
      * intros j m Hm Ge. destruct (Nat.eq_dec j (length g)) as [->|Hne].
        -- rewrite Hn' in Hm. now injection Hm as <-.
        -- apply (Pa g (created o p) j m Fo Hm); lia.
      * apply nth_lt in Hn'. lia.
      * assert (Hp1 : forall q m, In q P -> nth_error g1 q = Some m -> R (name n') < R (name m)).
        { intros q m Hq Hm. rewrite Nn. cbn [created name]. pose proof (i_prog _ _ _ _ I q Hq) as Hv.
          destruct (nth_error g q) as [m0|] eqn:E0.
          - pose proof (e_same _ _ X1 q m0 Hv E0) as Eq. cbn in Eq. rewrite Eq in Hm. injection Hm as <-. now apply (Hp q).
          - apply nth_error_None in E0. apply (i_vis _ _ _ _ I) in Hv. cbn in Hv. lia. }
        assert (Hh : forall h, Some (to d) = Some h -> exists o0, nth_error old h = Some o0 /\ equals_i (name n') (name o0) = true).
        { intros h [= <-]. exists o. split; [exact Ho|]. rewrite Nn. apply equals_i_refl. }
        assert (F1 : Full P (g1, v)).
        { constructor; cbn [fst snd]; [exact U|]. intros i n Hi Np Hn. pose proof (i_vis _ _ _ _ I i Hi) as Lt. cbn in Lt.
          destruct (nth_error g i) as [m0|] eqn:E0; [|apply nth_error_None in E0; lia].
          pose proof (e_same _ _ X1 i m0 Hi E0) as Eq. cbn in Eq. rewrite Eq in Hn. injection Hn as <-. now apply (f_done _ _ F i). }
        assert (C := Hc P (g1, v) (length g) (Some (to d)) n' I1 F1 Hn' Hp1 Hh).
        destruct (rec (g1, v) (length g) (Some (to d))) as [s1| |] eqn:Er; cbn [bind]; auto. apply Len.
        destruct (Hg P (g1, v) (length g) (Some (to d)) s1 n' Er I1 Hn' Hp1 Hh) as (I2 & X2 & V2 & N2).
        apply IH; [exact I2|exact C|exact Hsub'|apply Pm; eauto using ext_trans|]. apply Dm. eauto using ext_trans.
Qed.

Lemma match_true : forall g a b, Forall2 (same_state old g) b a -> deps_match old g a b = true.
Proof.
  intros g a b F. induction F as [|d e b a (m' & m & H1 & H2 & H3 & H4 & H5) F IH]; [reflexivity|]. cbn [deps_match].
  rewrite H1, H2, H4, H5, !N.eqb_refl. replace (str_eqb (name m) (name m')) with true; [exact IH|]. symmetry. now apply str_eqb_eq.
Qed.

Lemma migrate_cgood : forall fuel, cgood (migrate_node fuel init old).
Proof.
  induction fuel as [|fuel Hc]; intros P s i hint n I F Hn Hp Hh; [exact Logic.I|].
  pose proof (migrate_good R HR init old Hinit Hod fuel) as Hrec.
  cbn [migrate_node]. destruct (memb i (snd s)) eqn:Em; [exact F|]. apply memb_nIn in Em. rewrite Hn.
  destruct s as [g v]. cbn [fst snd] in *.
  assert (X0 : ext (g, v) (g, i :: v)).
  { constructor; cbn; auto. - intros j Hj. now right. - intros j m Hm. exists m. auto using kept_refl. }
  pose proof (inv_start R old P g v i n I Em Hn) as I0.
  assert (Fr : fresh n).
  { destruct (i_node _ _ _ _ I i n Hn) as [Q|[Hv _]]; [exact Q|contradiction]. }
  destruct (f_unch _ _ F i n Hn) as (h0 & o & Ho & D).
  destruct (N.eqb_spec (type n) file_type) as [Et|Et].
  { constructor; cbn [fst snd]; [exact (f_unch _ _ F)|]. intros j m Hj Np Hm. destruct Hj as [<-|Hj]; [|now apply (f_done _ _ F j)].
    rewrite Hn in Hm. injection Hm as <-. exists h0, o. split; [exact Ho|]. destruct D as (D1 & D2 & _). split; [exact D1|].
    split; [|now left]. destruct Fr as [-> _]. rewrite D2 in Et. destruct (Hb _ _ Ho Et) as (-> & _). reflexivity. }
  assert (F0 : Full (i :: P) (g, i :: v)).
  { constructor; cbn [fst snd]; [exact (f_unch _ _ F)|]. intros j m Hj Np Hm. destruct Hj as [<-|Hj]; [destruct Np; now left|].
    apply (f_done _ _ F j); auto. intros HP. apply Np. now right. }
  assert (Hdeps : forall d, In d (pre n ++ stat n) -> exists m, nth_error g (to d) = Some m /\
     forall p q, In p (i :: P) -> nth_error g p = Some q -> R (name m) < R (name q)).
  { intros d Hd. destruct (i_ord _ _ _ _ I i n Hn d Hd) as (m & Hm & Lt). exists m. split; [exact Hm|].
    intros p q [<-|Hq] Hpq.
    - rewrite Hn in Hpq. injection Hpq as <-. exact Lt.
    - specialize (Hp p q Hq Hpq). lia. }
  assert (C1 := each_full _ Hrec Hc (pre n) (i :: P) (g, i :: v) I0 F0).
  destruct (each (migrate_node fuel init old) (pre n) (g, i :: v)) as [s1| |] eqn:E1; cbn [bind]; auto.
  2:{ apply C1. intros d Hd. apply Hdeps. rewrite in_app_iff. now left. }
  destruct (each_good R old _ Hrec (pre n) (i :: P) (g, i :: v) s1 E1 I0) as (I1 & X1 & V1).
  { intros d Hd. apply Hdeps. rewrite in_app_iff. now left. }
  assert (F1 : Full (i :: P) s1). { apply C1. intros d Hd. apply Hdeps. rewrite in_app_iff. now left. }
  assert (Hdeps1 : forall d, In d (stat n) -> exists m, nth_error (fst s1) (to d) = Some m /\
     forall p q, In p (i :: P) -> nth_error (fst s1) p = Some q -> R (name m) < R (name q)).
  { intros d Hd. destruct (Hdeps d) as (m & Hm & Hq); [rewrite in_app_iff; now right|].
    destruct (e_kept _ _ X1 _ _ Hm) as (m1 & Hm1 & Km). exists m1. split; [exact Hm1|].
    intros p q Hpp Hpq. rewrite (k_name _ _ Km). pose proof (i_prog _ _ _ _ I0 p Hpp) as Hv.
    destruct (nth_error g p) as [q0|] eqn:E0.
    - pose proof (e_same _ _ X1 p q0 Hv E0) as Eq. cbn in Eq. rewrite Eq in Hpq. injection Hpq as <-. now apply (Hq p).
    - apply nth_error_None in E0. apply (i_vis _ _ _ _ I0) in Hv. cbn in Hv. lia. }
  assert (C2 := each_full _ Hrec Hc (stat n) (i :: P) s1 I1 F1 Hdeps1).
  destruct (each (migrate_node fuel init old) (stat n) s1) as [s2| |] eqn:E2; cbn [bind]; auto.
  destruct (each_good R old _ Hrec (stat n) (i :: P) s1 s2 E2 I1 Hdeps1) as (I2 & X2 & V2).
  assert (X02 : ext (g, i :: v) s2) by eauto using ext_trans.
  assert (Xs2 : ext (g, v) s2) by eauto using ext_trans.
  assert (Hi2 : In i (snd s2)) by (apply (e_vis _ _ X02); now left).
  assert (Hn2 : nth_error (fst s2) i = Some n) by (apply (e_same _ _ X02); [now left|exact Hn]).
  assert (Dd : done_deps (snd s2) (i :: P) n).
  { intros d Hd. rewrite in_app_iff in Hd. destruct Hd as [Hd|Hd]; [|now apply V2].
    destruct (V1 d Hd) as [Hv Np]. split; [now apply (e_vis _ _ X2)|exact Np]. }
  destruct (f_unch _ _ C2 i n Hn2) as (h2 & o2 & Ho2 & D').
  assert (Eo : o2 = o /\ h2 = h0).
  { apply (the_old h2 h0 o2 o (name o) Ho2 Ho); [|reflexivity]. destruct D as (D & _). destruct D' as (D' & _). rewrite <- D', <- D. apply equals_i_refl. }
  destruct Eo as [-> ->]. clear Ho2.
  assert (Eh : (match hint with Some h => Some h | None => find_node old (name n) end) = Some h0).
  { destruct D as (D1 & _). destruct hint as [h|].
    - destruct (Hh h eq_refl) as (o3 & Ho3 & E3). f_equal. apply equals_i_sym in E3. rewrite D1 in E3. now apply (Hu h h0 o3 o).
    - destruct (find_node old (name n)) as [h|] eqn:Ef.
      + apply find_some in Ef as (o3 & Ho3 & E3). f_equal. rewrite D1 in E3. now apply (Hu h h0 o3 o).
      + pose proof (find_none _ _ Ef _ _ Ho) as Q. rewrite D1, equals_i_refl in Q. discriminate. }
  rewrite Eh, Ho, Hn2. destruct D' as (D1 & D2 & D3 & D4 & D5).
  replace (N.eqb (type o) (type n)) with true by (symmetry; apply N.eqb_eq; congruence). cbn [negb].
  replace (fields_same (props o) (props n)) with true by (symmetry; apply (proj1 (proj2 same_agree)); auto). cbn [negb].
  assert (St : forall d e, In d (pre n ++ stat n) -> same_target old (fst s2) d e -> same_state old (fst s2) d e).
  { intros d e Hd (m' & m & H1 & H2 & H3 & H4). exists m', m. repeat split; auto.
    destruct (Dd d Hd) as [Q1 Q2]. destruct (f_done _ _ C2 (to d) m' Q1 Q2 H1) as (h' & o' & Ho' & Q3 & Q4 & _).
    destruct (the_old h' (to e) o' m (name m) Ho' H2) as [-> _]; [|reflexivity|exact Q4]. rewrite <- Q3, H3. apply equals_i_refl. }
  rewrite (match_true (fst s2) (pre o) (pre n)).
  2:{ eapply Forall2_weaken; [|exact D4]. intros a b Ha. apply St. rewrite in_app_iff. now left. }
  rewrite (match_true (fst s2) (stat o) (stat n)).
  2:{ eapply Forall2_weaken; [|exact D5]. intros a b Ha. apply St. rewrite in_app_iff. now right. }
  cbn [negb]. destruct s2 as [g2 v2]. cbn [fst snd] in *.
  set (n3 := set_stat (restamp (stat o) (stat n)) n) in *.
  assert (K3 : kept n n3) by (constructor; try reflexivity; [apply restamp_to|auto]).
  assert (Fr3 : fresh n3) by exact Fr.
  pose proof (proj1 (inv_set R old P i g2 v2 n n3 I2 Hn2 K3 (or_introl Fr3)) Fr3) as I3.
  pose proof (ext_set (g, v) g2 v2 i n n3 Xs2 Em Hn2 K3) as X3.
  assert (L2 : i < length g2) by (now apply nth_lt in Hn2).
  assert (Hn3 : nth_error (set_nth i n3 g2) i = Some n3) by (now apply set_nth_same).
  (* replacing the node keeps the rest *)
  assert (SetFull : forall gg vv a b P', Full (i :: P) (gg, vv) -> nth_error gg i = Some a -> kept a b ->
      (forall x, agree_fields (props x) (props a) -> nth_error old h0 = Some x -> agree_fields (props x) (props b)) ->
      name a = name o ->
      (forall j m, In j vv -> ~ In j P' -> nth_error (set_nth i b gg) j = Some m ->
         (j = i /\ m = b /\ stamp b = stamp o /\ length (dyn b) = length (dyn o)) \/ (j <> i /\ ~ In j (i :: P))) ->
      Full P' (set_nth i b gg, vv)).
  { intros gg vv a b P' [Fu Fd] Ha Kab Ag Na Cond. cbn [fst snd] in *.
    assert (La : i < length gg) by (now apply nth_lt in Ha).
    assert (KK := set_kept gg i a b Ha Kab).
    constructor; cbn [fst snd].
    - intros j m Hm. destruct (Nat.eq_dec j i) as [->|Ne].
      + rewrite set_nth_same in Hm by exact La. injection Hm as <-. destruct (Fu i a Ha) as (h' & o' & Ho' & Dd').
        exists h', o'. split; [exact Ho'|]. apply (defined_kept old gg _ a b); auto. intros Hag. apply Ag; [exact Hag|].
        destruct (the_old h' h0 o' o (name o) Ho' Ho) as [-> _]; [|reflexivity|exact Ho].
        destruct Dd' as (Q & _). rewrite <- Q, Na. apply equals_i_refl.
      + rewrite set_nth_other in Hm by exact Ne. destruct (Fu j m Hm) as (h' & o' & Ho' & Dd').
        exists h', o'. split; [exact Ho'|]. apply (defined_kept old gg _ m m); auto using kept_refl.
    - intros j m Hj Np Hm. destruct (Cond j m Hj Np Hm) as [(-> & -> & Q1 & Q2)|[Ne Np']].
      + exists h0, o. split; [exact Ho|]. split; [rewrite (k_name _ _ Kab); exact Na|]. split; [exact Q1|now right].
      + rewrite set_nth_other in Hm by exact Ne. now apply (Fd j). }
  assert (F3 : Full (i :: P) (set_nth i n3 g2, v2)).
  { apply (SetFull g2 v2 n n3); auto. intros j m Hj Np _. right. split; [|exact Np]. intros ->. apply Np. now left. }
  assert (Hdd : forall d, In d (dyn o) -> exists o0, nth_error old (to d) = Some o0 /\
     forall p m, In p (i :: P) -> nth_error (fst (set_nth i n3 g2, v2)) p = Some m -> R (name o0) < R (name m)).
  { intros d Hd. destruct (Hod h0 o Ho d Hd) as (m & Hm & Lt). exists m. split; [exact Hm|].
    rewrite <- D1 in Lt. intros p q [<-|Hq] Hpq.
    - cbn in Hpq. rewrite Hn3 in Hpq. injection Hpq as <-. exact Lt.
    - destruct (nth_error g p) as [q0|] eqn:E0.
      + pose proof (e_same _ _ X3 p q0 (i_prog _ _ _ _ I p Hq) E0) as Eq. cbn in Eq, Hpq. rewrite Eq in Hpq. injection Hpq as <-.
        specialize (Hp p q0 Hq E0). lia.
      + apply nth_error_None in E0. pose proof (i_vis _ _ _ _ I p (i_prog _ _ _ _ I p Hq)) as Hv. cbn in Hv. lia. }
  assert (C4 := dynamics_full _ Hrec Hc h0 o i Ho (dyn o) (i :: P) (set_nth i n3 g2, v2) [] I3 F3 (incl_refl _) (ex_intro _ n3 (conj Hn3 D1)) Hdd).
  destruct (dynamics (migrate_node fuel init old) init old (dyn o) (set_nth i n3 g2, v2) []) as [[s4 [ds|]]| |] eqn:E4; cbn [bind]; auto.
  2:{ destruct C4. }
  destruct C4 as [F4 L4]. cbn [fst snd].
  destruct (dynamics_good R init old Hinit _ Hrec (dyn o) (i :: P) (set_nth i n3 g2, v2) [] [] s4 _ E4 I3 (Forall2_nil _) Hdd) as (I4 & X4 & _).
  assert (Hn4 : nth_error (fst s4) i = Some n3) by (apply (e_same _ _ X4); [exact Hi2|exact Hn3]).
  rewrite Hn4. destruct s4 as [g4 v4]. cbn [fst snd] in *.
  apply (SetFull g4 v4 n3 (finish ds o n3)); auto.
  - constructor; try reflexivity. intros x. now apply agree_untake, D3.
  - intros x Hx Ex. rewrite Ho in Ex. injection Ex as <-. cbn. now apply agree_take.
  - intros j m Hj Np Hm. destruct (Nat.eq_dec j i) as [->|Ne].
    + left. rewrite set_nth_same in Hm by (now apply nth_lt in Hn4). injection Hm as <-. repeat split.
      cbn. destruct Fr as [_ ->]. exact L4.
    + right. split; [exact Ne|]. intros [Q|Q]; [now apply Ne|contradiction].
Qed.

Lemma migrate_all_full : forall fuel is s, Inv R old [] s -> Full [] s -> (forall i, In i is -> i < length (fst s)) ->
  match migrate_all fuel init old is s with Done s' => Full [] s' | Crash => False | NoFuel => True end.
Proof.
  intros fuel. induction is as [|i is IH]; intros s I F Hi; [exact F|]. cbn [migrate_all].
  destruct (nth_error (fst s) i) as [n|] eqn:En; [|apply nth_error_None in En; specialize (Hi i (or_introl eq_refl)); lia].
  assert (C := migrate_cgood fuel [] s i None n I F En).
  destruct (migrate_node fuel init old s i None) as [s1| |] eqn:E; cbn [bind]; auto.
  2:{ apply C; [intros p m []|discriminate]. }
  destruct (migrate_good R HR init old Hinit Hod fuel [] s i None s1 n E I En) as (I1 & X1 & V1 & _); [intros p m []|discriminate|].
  apply IH; [exact I1|apply C; [intros p m []|discriminate]|].
  intros j Hj. specialize (Hi j (or_intror Hj)). pose proof (e_len _ _ X1). lia.
Qed.
End S.
