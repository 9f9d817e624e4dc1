From Coq Require Import List Arith Bool Ascii String NArith Lia.
From Verif Require Import M_Path S_Path P_Path P_Path2.
Import ListNotations.

Local Notation pp := posix.
Lemma WPx : pp = posix \/ pp = win. Proof. now left. Qed.

Lemma comps_split p a x b : is_slash p x = true -> components p (a ++ x :: b) = components p a ++ components p b.
Proof.
  intros S. induction a as [|c a IH]; [now apply comp_cons_slash|].
  cbn. fold (is_slash p c). destruct (is_slash p c) eqn:E; [now rewrite IH|].
  rewrite IH. pose proof (comp_nonempty p a). destruct (components p a); [congruence|]. reflexivity.
Qed.
Lemma comps_count s : List.length (components pp s) = S (count_slashes s).
Proof.
  induction s as [|c r IH]; auto. unfold count_slashes in *. cbn [components filter any_slash native other posix].
  unfold any_slash at 1. destruct (_ || _); cbn [List.length]; [now rewrite IH|].
  destruct (components pp r) as [|h t]; cbn [List.length] in *; lia.
Qed.
Lemma any_slash_is c : any_slash c = is_slash pp c.
Proof. reflexivity. Qed.

Lemma common_spec : forall a b mid pre moved pa pb pa' pb' moved',
  pa = mid ++ a -> pb = mid ++ b -> noslash pp mid -> nonul a ->
  (moved = true -> exists x y, pre = x ++ [y] /\ is_slash pp y = true) ->
  common a b pa pb moved = (pa', pb', moved') ->
  exists pre', pre' ++ pa' = pre ++ pa /\ pre' ++ pb' = pre ++ pb /\
    (moved' = true -> exists x y, pre' = x ++ [y] /\ is_slash pp y = true) /\
    (moved = true -> moved' = true).
Proof.
  induction a as [|x a IH]; intros b mid pre moved pa pb pa' pb' moved' EA EB NM NZ HM H; cbn in H.
  { injection H as <- <- <-. exists pre. auto. }
  destruct b as [|y b]; [injection H as <- <- <-; exists pre; auto|].
  destruct (Ascii.eqb x y && negb (Ascii.eqb x nul)) eqn:E; [|injection H as <- <- <-; exists pre; auto].
  apply andb_true_iff in E. destruct E as [E _]. apply Ascii.eqb_eq in E. subst y.
  assert (NZ' : nonul a) by (intros Q; apply NZ; now right).
  destruct (any_slash x) eqn:SX.
  - destruct (IH b [] (pre ++ mid ++ [x]) true a b pa' pb' moved') as (pre'&H1&H2&H3&H4); auto.
    { intros z []. } { intros _. exists (pre ++ mid), x. rewrite <- app_assoc. auto. }
    exists pre'. rewrite H1, H2. subst pa pb. rewrite <- !app_assoc. cbn. repeat split; auto.
  - destruct (IH b (mid ++ [x]) pre moved pa pb pa' pb' moved') as (pre'&H1&H2&H3&H4); auto.
    { subst. now rewrite <- app_assoc. } { subst. now rewrite <- app_assoc. }
    { intros z Hz. apply in_app_iff in Hz. destruct Hz as [Hz|[<-|[]]]; auto. }
    exists pre'. auto.
Qed.

Lemma moved_first x a b : any_slash x = true -> x <> nul -> 
  forall m, exists pa pb, common (x :: a) (x :: b) (x :: a) (x :: b) m = (pa, pb, true).
Proof.
  intros SX NX m. cbn. rewrite Ascii.eqb_refl. replace (Ascii.eqb x nul) with false by (symmetry; now apply Ascii.eqb_neq).
  cbn [andb negb]. rewrite SX.
  destruct (common a b a b true) as [[pa pb] mv] eqn:E. exists pa, pb.
  destruct mv; auto. exfalso. clear m.
  assert (Q : forall a b pa0 pb0 pa pb, common a b pa0 pb0 true = (pa, pb, false) -> False).
  { clear. induction a as [|x a IH]; intros b pa0 pb0 pa pb; cbn; [discriminate|].
    destruct b; [discriminate|]. destruct (_ && _); [|discriminate]. destruct (any_slash x); apply IH. }
  now apply Q in E.
Qed.

Lemma walk_app d a b : walk d (a ++ b) = walk (walk d a) b.
Proof. apply fold_left_app. Qed.
Lemma walk_good p d st : Forall (good p) st -> walk d st = d ++ st.
Proof.
  intros F. revert d. induction F as [|c st Hc F IH]; intros d; [now rewrite app_nil_r|].
  rewrite walk_cons, (go_good p) by auto. rewrite IH. now rewrite <- app_assoc.
Qed.
Lemma upn_app W cs : upn (List.length cs) (W ++ cs) = W.
Proof.
  revert W. induction cs as [|c cs IH]; intros W; [apply app_nil_r|].
  cbn [List.length upn]. change (c :: cs) with ([c] ++ cs). rewrite app_assoc, IH. apply removelast_last.
Qed.
Lemma ups_comps' k s : components pp (ups pp k ++ s) = repeat [dot; dot] k ++ components pp s.
Proof.
  induction k as [|k IH]; auto. unfold ups. cbn [repeat List.concat]. fold (ups pp k). unfold updots.
  change (([dot; dot; native pp] ++ ups pp k) ++ s) with ([dot; dot] ++ native pp :: (ups pp k ++ s)).
  rewrite comps_split by reflexivity. rewrite IH. reflexivity.
Qed.

Definition with_slash (base : str) : str :=
  match rev base with
  | c :: _ => if Ascii.eqb c (native pp) then base else base ++ [native pp]
  | [] => base ++ [native pp]
  end.
Lemma with_slash_clean base : clean pp base -> nonul base -> exists st,
  with_slash base = native pp :: render pp st /\ Forall (good pp) st /\ location pp base = ([], st).
Proof.
  intros C NZ. destruct (clean_decomp pp WPx base C NZ) as (d&st&part&E&D&G&GP).
  destruct (decomp_clean pp WPx d st part D G GP) as [_ LOC]. rewrite <- E in LOC.
  assert (d = []) as -> by (destruct D as (A&_); destruct d; [auto|discriminate]). cbn [app] in E.
  destruct GP as [->|GP].
  - cbn [tailc] in LOC. rewrite app_nil_r in LOC, E. exists st. split; [|auto].
    unfold with_slash. rewrite E. destruct st as [|c0 st0] using rev_ind; [reflexivity|].
    rewrite render_app, render_one. 
    replace (native pp :: render pp st0 ++ c0 ++ [native pp]) with ((native pp :: render pp st0 ++ c0) ++ [native pp]) by (cbn [app]; now rewrite <- app_assoc).
    rewrite rev_app_distr. cbn [rev app]. rewrite Ascii.eqb_refl. reflexivity.
  - exists (st ++ [part]). destruct part as [|z part0] eqn:EP; [destruct GP; congruence|]. rewrite <- EP in *.
    assert (tailc part = [part]) as TE by (rewrite EP; reflexivity). rewrite TE in LOC.
    split; [|split; [apply Forall_app; auto|auto]].
    unfold with_slash. rewrite E. rewrite render_app, render_one.
    assert (EL : part <> []) by (rewrite EP; discriminate). destruct (exists_last EL) as (q&l&Q).
    destruct GP as (_&NS&_). assert (SL : is_slash pp l = false) by (apply NS; rewrite Q; apply in_app_iff; right; now left).
    rewrite Q. replace (native pp :: render pp st ++ q ++ [l]) with ((native pp :: render pp st ++ q) ++ [l]) by (cbn [app]; now rewrite <- app_assoc).
    rewrite rev_app_distr. cbn [rev app].
    replace (Ascii.eqb l (native pp)) with false.
    + now rewrite <- !app_assoc.
    + symmetry. apply Ascii.eqb_neq. now apply not_slash_native; [apply WPx|].
Qed.

Lemma relative_leads_back base file : clean pp base -> nonul base -> clean pp file -> nonul file ->
  walk (snd (location pp base)) (components pp (relative_path pp base file)) = snd (location pp file).
Proof.
  intros CB NB CF NF. destruct (with_slash_clean base CB NB) as (stb&EB&GB&LB).
  destruct (clean_decomp pp WPx file CF NF) as (d&stf&part&EF&D&GF&GP).
  assert (d = []) as -> by (destruct D as (A&_); destruct d; [auto|discriminate]). cbn [app] in EF.
  assert (UR : relative_path pp base file = match common (with_slash base) file (with_slash base) file false with
    | (_, _, false) => file | (pa, pb, true) => List.concat (repeat [dot; dot; native pp] (count_slashes pa)) ++ pb end) by reflexivity.
  rewrite UR. clear UR. rewrite LB. cbn [snd].
  destruct (common (with_slash base) file (with_slash base) file false) as [[pa pb] mv] eqn:EC.
  assert (mv = true) as ->.
  { revert EC. rewrite EB, EF. destruct (moved_first (native pp) (render pp stb) (render pp stf ++ part) eq_refl ltac:(discriminate) false) as (u&v&->).
    congruence. }
  assert (NZB : nonul (with_slash base)).
  { rewrite EB. intros [H|H]; [discriminate|]. pose proof (good_nonul_render pp WPx stb [] GB) as Q. rewrite app_nil_r in Q. apply Q; auto. intros []. }
  destruct (common_spec (with_slash base) file [] [] false (with_slash base) file pa pb true eq_refl eq_refl
      ltac:(intros z []) NZB ltac:(discriminate) EC) as (pre&P1&P2&P3&_).
  destruct (P3 eq_refl) as (pre'&y&->&SY). cbn [app] in P1, P2. rewrite <- app_assoc in P1, P2. cbn [app] in P1, P2.
  unfold location. cbn [snd]. change (drive_len pp) with 0. cbn [skipn].
  rewrite <- P2. rewrite comps_split by auto. rewrite walk_app.
  assert (CA : components pp pre' ++ components pp pa = [] :: stb ++ [[]]).
  { rewrite <- comps_split with (x := y) by auto. rewrite P1, EB. rewrite comp_cons_slash by reflexivity.
    rewrite <- (app_nil_r (render pp stb)). rewrite (comps_render pp WPx) by (first [now apply good_noslash|intros z []]). reflexivity. }
  pose proof (comp_nonempty pp pre') as NE1. pose proof (comp_nonempty pp pa) as NE2.
  destruct (components pp pre') as [|h t]; [congruence|]. injection CA as -> CA.
  destruct (exists_last NE2) as (cs&lst&E2). rewrite E2 in CA. rewrite app_assoc in CA.
  apply app_inj_tail in CA. destruct CA as [CA ->].
  pose proof (comps_count pa) as CC. rewrite E2, app_length in CC. cbn in CC.
  assert (HC : count_slashes pa = List.length cs) by lia.
  change (List.concat (repeat [dot; dot; native pp] (count_slashes pa)) ++ pb) with (ups pp (count_slashes pa) ++ pb).
    rewrite HC, ups_comps', walk_ups.
  rewrite <- CA in GB |- *. rewrite upn_app. rewrite walk_cons. cbn [go].
  apply Forall_app in GB. rewrite (walk_good pp [] t) by apply GB. reflexivity.
Qed.

(** Extensions. *)
Lemma cut_spec s e : ~ In dot e -> cut_at_dot (rev e ++ dot :: s) = Some s.
Proof.
  intros H. assert (Q : forall l, ~ In dot l -> cut_at_dot (l ++ dot :: s) = Some s).
  { induction l as [|c l IH]; intros HL; cbn; [reflexivity|].
    destruct (Ascii.eqb_spec c dot) as [->|N]; [exfalso; apply HL; now left|]. apply IH. intros K. apply HL. now right. }
  apply Q. intros K. apply H. now apply in_rev.
Qed.
Lemma cut_none s : ~ In dot s -> cut_at_dot s = None.
Proof.
  induction s as [|c s IH]; intros H; auto. cbn. destruct (Ascii.eqb_spec c dot) as [->|N]; [exfalso; apply H; now left|].
  apply IH. intros K. apply H. now right.
Qed.
