From Coq Require Import List Arith Bool Ascii String NArith Lia.
From Verif Require Import M_Path S_Path.
Import ListNotations.

Section P.
Context (p : plat) (WP : p = posix \/ p = win).

Lemma slash_facts : is_slash p dot = false /\ is_slash p nul = false /\ native p <> other p /\
  is_slash p (native p) = true /\ is_slash p (other p) = true /\ dot <> native p /\ native p <> nul /\ dot <> nul /\
  is_slash p ":"%char = false.
Proof. destruct WP as [-> | ->]; vm_compute; repeat split; discriminate. Qed.

Lemma is_slash_iff c : is_slash p c = true <-> c = native p \/ c = other p.
Proof. unfold is_slash. rewrite orb_true_iff, !Ascii.eqb_eq. reflexivity. Qed.
Lemma not_slash_native c : is_slash p c = false -> c <> native p.
Proof. intros H ->. destruct slash_facts as (_&_&_&Q&_). congruence. Qed.

(** The loop without the buffer checks. *)
Fixpoint loop0 (fuel : nat) (full : bool) (src rdst : str) (lowest : nat) (lastc : ascii) : option str :=
  match fuel with
  | O => None
  | S f =>
      match src with
      | [] => Some rdst
      | c :: r =>
          let write := loop0 f full r (c :: rdst) lowest c in
          if is_slash p c then loop0 f full (skip_slashes p src) (native p :: rdst) lowest (native p)
          else if Ascii.eqb c dot && Ascii.eqb lastc (native p) then
            if slash_or_nul p (peek r) then loop0 f full (skip_slashes p r) rdst lowest lastc
            else if Ascii.eqb (peek r) dot && slash_or_nul p (peek (tl r)) then
              let src' := skip_slashes p (tl r) in
              if lowest <? List.length rdst then loop0 f full src' (back p (tl rdst) lowest) lowest lastc
              else if negb full then
                let rdst' := native p :: dot :: dot :: rdst in
                loop0 f full src' rdst' (List.length rdst') lastc
              else loop0 f full src' rdst lowest lastc
            else write
          else write
      end
  end.


Definition noslash (s : str) : Prop := forall c, In c s -> is_slash p c = false.
Definition nonul (s : str) : Prop := ~ In nul s.

Lemma skip_len s : List.length (skip_slashes p s) <= List.length s.
Proof. induction s as [|c r IH]; cbn; auto. destruct (is_slash p c); cbn; lia. Qed.
Lemma skip_head s : match skip_slashes p s with [] => True | c :: _ => is_slash p c = false end.
Proof. induction s as [|c r IH]; cbn; auto. destruct (is_slash p c) eqn:E; auto. Qed.
Lemma skip_noop s : match s with [] => True | c :: _ => is_slash p c = false end -> skip_slashes p s = s.
Proof. destruct s as [|c r]; cbn; auto. now intros ->. Qed.
Lemma skip_in s c : In c (skip_slashes p s) -> In c s.
Proof. induction s as [|x r IH]; cbn; auto. destruct (is_slash p x); cbn; auto. Qed.

(** ** components and walk *)
Lemma comp_nonempty s : components p s <> [].
Proof. destruct s as [|c r]; cbn; [discriminate|]. destruct (_ || _); [discriminate|]. destruct (components p r); discriminate. Qed.

Lemma comp_noslash c : noslash c -> components p c = [c].
Proof.
  induction c as [|x c IH]; intros H; auto. cbn. fold (is_slash p x). rewrite (H x) by now left.
  rewrite IH; auto. intros y Hy. apply H. now right.
Qed.
Lemma comp_cons_slash x r : is_slash p x = true -> components p (x :: r) = [] :: components p r.
Proof. intros H. cbn. fold (is_slash p x). now rewrite H. Qed.
Lemma comp_app c x r : noslash c -> is_slash p x = true -> components p (c ++ x :: r) = c :: components p r.
Proof.
  intros H S. induction c as [|y c IH]; [now apply comp_cons_slash|].
  cbn. fold (is_slash p y). rewrite (H y) by now left. rewrite IH; auto. intros z Hz. apply H. now right.
Qed.

Lemma walk_cons d c cs : walk d (c :: cs) = walk (go d c) cs.
Proof. reflexivity. Qed.
Lemma walk_skip d s : walk d (components p (skip_slashes p s)) = walk d (components p s).
Proof.
  induction s as [|c r IH]; cbn [skip_slashes]; auto. destruct (is_slash p c) eqn:E; auto.
  rewrite comp_cons_slash by auto. rewrite walk_cons. exact IH.
Qed.

(* take one component *)
Lemma span s : exists c rest, s = c ++ rest /\ noslash c /\
  (rest = [] \/ exists x r, rest = x :: r /\ is_slash p x = true).
Proof.
  induction s as [|y s IH].
  - exists [], []. split; auto. split; auto. intros c [].
  - destruct (is_slash p y) eqn:E.
    + exists [], (y :: s). split; auto. split; [intros c []|]. right. eauto.
    + destruct IH as (c&rest&->&N&R). exists (y :: c), rest. split; auto. split; auto.
      intros z [<-|Hz]; auto.
Qed.

Definition good (c : str) : Prop := c <> [] /\ noslash c /\ nonul c /\ c <> [dot] /\ c <> [dot; dot].

Lemma go_good d c : good c -> go d c = d ++ [c].
Proof.
  intros (H1&_&_&H2&H3). unfold go. destruct c as [|a [|b [|x c]]]; try congruence.
  - change dot with "."%char in H2. destruct a as [[] [] [] [] [] [] [] []]; cbn in *; auto; congruence.
  - change dot with "."%char in H3.
    destruct (Ascii.eqb_spec a "."%char) as [->|NA].
    + destruct (Ascii.eqb_spec b "."%char) as [->|NB]; [congruence|].
      destruct b as [[] [] [] [] [] [] [] []]; cbn; auto; congruence.
    + destruct a as [[] [] [] [] [] [] [] []]; cbn; auto; congruence.
  - destruct a as [[] [] [] [] [] [] [] []]; cbn; auto;
      destruct b as [[] [] [] [] [] [] [] []]; cbn; auto.
Qed.

(** ** rendering *)
Definition render (st : list str) : str := List.concat (map (fun c => c ++ [native p]) st).
Lemma render_app a b : render (a ++ b) = render a ++ render b.
Proof. unfold render. now rewrite map_app, concat_app. Qed.
Lemma render_one c : render [c] = c ++ [native p].
Proof. unfold render. cbn [map List.concat]. apply app_nil_r. Qed.

(** ** one macro step *)
Lemma copy c : forall f full rest rd low last, noslash c -> last <> native p ->
  exists last', loop0 (List.length c + f) full (c ++ rest) rd low last =
                loop0 f full rest (rev c ++ rd) low last' /\ last' <> native p.
Proof.
  induction c as [|x c IH]; intros f full rest rd low last N NL; [exists last; auto|].
  assert (NX : is_slash p x = false) by (apply N; now left).
  cbn [List.length Nat.add app loop0]. rewrite NX.
  replace (Ascii.eqb last (native p)) with false by (symmetry; now apply Ascii.eqb_neq).
  rewrite andb_false_r.
  destruct (IH f full rest (x :: rd) low x) as (l'&E&NL').
  { intros y Hy. apply N. now right. } { now apply not_slash_native. }
  exists l'. split; auto. cbn [rev]. rewrite <- app_assoc. exact E.
Qed.

Lemma peek_rest rest : rest = [] \/ (exists x r, rest = x :: r /\ is_slash p x = true) ->
  slash_or_nul p (peek rest) = true.
Proof.
  intros [->|(x&r&->&H)]; unfold slash_or_nul; cbn.
  - apply orb_true_iff. right. reflexivity.
  - now rewrite H.
Qed.
Lemma peek_in c rest : c <> [] -> noslash c -> nonul c -> slash_or_nul p (peek (c ++ rest)) = false.
Proof.
  destruct c as [|x c]; [congruence|]. intros _ N Z. cbn. unfold slash_or_nul. rewrite (N x) by now left.
  cbn. apply Ascii.eqb_neq. intros ->. apply Z. now left.
Qed.

(* copying a good component from the start of a component *)
Lemma copy_good c f full rest rd low : good c ->
  (rest = [] \/ exists x r, rest = x :: r /\ is_slash p x = true) ->
  exists last', loop0 (List.length c + f) full (c ++ rest) rd low (native p) =
                loop0 f full rest (rev c ++ rd) low last' /\ last' <> native p.
Proof.
  intros (NE&N&Z&D1&D2) HR. destruct c as [|x c]; [congruence|].
  assert (NX : is_slash p x = false) by (apply N; now left).
  assert (Nc : noslash c) by (intros y Hy; apply N; now right).
  assert (Zc : nonul c) by (intros H; apply Z; now right).
  destruct (copy c f full rest (x :: rd) low x Nc (not_slash_native _ NX)) as (l'&E&NL).
  exists l'. split; auto. cbn [rev]. rewrite <- app_assoc. cbn [app] in *. rewrite <- E. clear E.
  cbn [List.length Nat.add loop0]. rewrite NX. rewrite (Ascii.eqb_refl (native p)), andb_true_r.
  destruct (Ascii.eqb_spec x dot) as [->|]; auto.
  destruct c as [|y c]; [congruence|].
  rewrite peek_in by (auto; discriminate). cbn [app peek tl].
  destruct (Ascii.eqb_spec y dot) as [->|]; auto.
  destruct c as [|z c]; [congruence|].
  rewrite (peek_in (z :: c)); [reflexivity|discriminate| |].
  - intros w Hw. apply Nc. now right.
  - intros H. apply Zc. now right.
Qed.

Lemma back_to pre c rd0 : noslash c -> (forall r, rd0 = rev pre ++ r -> True) ->
  forall low, low = List.length rd0 -> back p (rev c ++ rd0) low = rd0.
Proof.
  intros N _ low ->. 
  assert (Q : forall l, noslash l -> back p (l ++ rd0) (List.length rd0) = rd0).
  { induction l as [|x l IH]; intros Nl; cbn [app].
    - destruct rd0 as [|a r]; auto. cbn [back]. now rewrite Nat.ltb_irrefl.
    - cbn [back]. replace (_ <? _) with true.
      + replace (Ascii.eqb x (native p)) with false.
        * apply IH. intros y Hy. apply Nl. now right.
        * symmetry. apply Ascii.eqb_neq. apply not_slash_native. apply Nl. now left.
      + symmetry. apply Nat.ltb_lt. cbn. rewrite app_length. lia. }
  apply Q. intros y Hy. apply N. now apply in_rev.
Qed.
Lemma back_stop c rd0 low : noslash c -> low <= List.length rd0 ->
  back p (rev c ++ native p :: rd0) low = native p :: rd0.
Proof.
  intros N LE.
  assert (Q : forall l, noslash l -> back p (l ++ native p :: rd0) low = native p :: rd0).
  { induction l as [|x l IH]; intros Nl; cbn [app].
    - cbn [back]. replace (_ <? _) with true by (symmetry; apply Nat.ltb_lt; cbn; lia). now rewrite Ascii.eqb_refl.
    - cbn [back]. replace (_ <? _) with true.
      + replace (Ascii.eqb x (native p)) with false.
        * apply IH. intros y Hy. apply Nl. now right.
        * symmetry. apply Ascii.eqb_neq. apply not_slash_native. apply Nl. now left.
      + symmetry. apply Nat.ltb_lt. cbn. rewrite app_length. cbn. lia. }
  apply Q. intros y Hy. apply N. now apply in_rev.
Qed.

Lemma back_render pre st c : Forall good (st ++ [c]) ->
  List.length pre < List.length (rev (pre ++ render (st ++ [c]))) /\
  back p (tl (rev (pre ++ render (st ++ [c])))) (List.length pre) = rev (pre ++ render st).
Proof.
  intros F. rewrite render_app. unfold render at 2 4. cbn [map List.concat]. rewrite app_nil_r.
  assert (GC : good c) by (apply Forall_app in F; destruct F as [_ F]; now inversion F).
  destruct GC as (NE&N&_).
  split.
  - rewrite rev_length, !app_length. cbn. lia.
  - rewrite !app_assoc, rev_app_distr. cbn [rev app tl]. rewrite rev_app_distr.
    destruct st as [|s0 st0].
    + unfold render. cbn [map List.concat]. rewrite app_nil_r. apply (back_to pre); auto. now rewrite rev_length.
    + assert (EL : s0 :: st0 <> []) by discriminate. destruct (exists_last EL) as (st'&d&E). rewrite E.
      rewrite render_app. unfold render at 2 4. cbn [map List.concat]. rewrite app_nil_r, !app_assoc.
      rewrite !rev_app_distr. cbn [rev app]. rewrite <- !rev_app_distr.
      apply back_stop; auto. rewrite rev_length, !app_length. lia.
Qed.

(** ** the whole loop *)
Fixpoint upn (k : nat) (b : list str) : list str := match k with O => b | S k' => removelast (upn k' b) end.
Definition updots : str := [dot; dot; native p].
Definition ups (k : nat) : str := List.concat (repeat updots k).
Lemma ups_S k : ups (S k) = ups k ++ updots.
Proof. unfold ups. induction k as [|k IH]; auto. cbn [repeat List.concat] in *. rewrite IH at 1. now rewrite app_assoc. Qed.
Lemma upn_nil k : upn k [] = [].
Proof. induction k as [|k IH]; cbn; auto. now rewrite IH. Qed.

Definition tailc (part : str) : list str := match part with [] => [] | _ => [part] end.
Definition pre_of (full : bool) (root : str) (k : nat) : str := if full then root else ups k.

Lemma walk_end d c : good c -> walk d (components p c) = d ++ [c].
Proof. intros G. rewrite comp_noslash by apply G. cbn. now apply go_good. Qed.

Lemma loop_spec full root : forall f src k st, List.length src < f -> Forall good st -> nonul src ->
  match src with [] => True | c :: _ => is_slash p c = false end ->
  exists k' st' part,
    loop0 f full src (rev (pre_of full root k ++ render st)) (List.length (pre_of full root k)) (native p)
      = Some (rev (pre_of full root k' ++ render st' ++ part)) /\
    Forall good st' /\ (part = [] \/ good part) /\ k <= k' /\
    forall b, (full = true -> b = []) ->
      walk (upn k b ++ st) (components p src) = upn k' b ++ st' ++ tailc part.
Proof.
  induction f as [f IH] using lt_wf_ind. intros src k st HF GS NZ HD.
  destruct f as [|f]; [lia|].
  destruct src as [|x0 s0].
  { exists k, st, []. cbn [loop0]. split; [now rewrite app_nil_r|].
    split; [auto|split; [auto|split; [auto|]]]. intros b _. cbn. now rewrite app_nil_r. }
  destruct (span (x0 :: s0)) as (c&rest&E&NS&HR).
  assert (NC : c <> []).
  { intros ->. destruct HR as [->|(x&r&->&Hx)]; [discriminate|]. cbn in E. injection E as <- <-. congruence. }
  assert (NZc : nonul c) by (intros H; apply NZ; rewrite E; apply in_app_iff; auto).
  assert (NZr : nonul rest) by (intros H; apply NZ; rewrite E; apply in_app_iff; auto).
  assert (NZs : nonul (skip_slashes p rest)) by (intros H; apply NZr; now apply skip_in).
  pose proof (skip_len rest) as SL.
  assert (CW : forall d, walk d (components p (c ++ rest)) = walk (go d c) (components p (skip_slashes p rest))).
  { intros d. destruct HR as [->|(x&r&->&Hx)].
    - rewrite app_nil_r, comp_noslash by auto. reflexivity.
    - rewrite comp_app by auto. rewrite walk_cons. rewrite walk_skip. rewrite comp_cons_slash by auto. reflexivity. }
  rewrite E in HF |- *. rewrite app_length in HF. clear HD.
  destruct (list_eq_dec ascii_dec c [dot]) as [->|ND].
  { (* "." *)
    cbn [app loop0]. destruct slash_facts as (SD&_). rewrite SD. rewrite !Ascii.eqb_refl. cbn [andb].
    rewrite peek_rest by auto. cbn [List.length] in HF.
    destruct (IH f ltac:(lia) (skip_slashes p rest) k st) as (k'&st'&part&R1&R2&R3&R4&R5); auto; [lia|apply skip_head|].
    exists k', st', part. split; [exact R1|]. split; [auto|split; [auto|split; [auto|]]].
    intros b Hb. rewrite <- R5 by auto. apply (CW (upn k b ++ st)). }
  destruct (list_eq_dec ascii_dec c [dot; dot]) as [->|NDD].
  { (* ".." *)
    cbn [app loop0]. destruct slash_facts as (SD&_). rewrite SD. rewrite !Ascii.eqb_refl. cbn [andb peek tl].
    unfold slash_or_nul at 1. rewrite SD. replace (Ascii.eqb dot nul) with false by reflexivity. cbn [orb].
    rewrite ?Ascii.eqb_refl. cbn [andb]. rewrite peek_rest by auto. cbn [List.length] in HF.
    destruct st as [|s1 st1].
    - (* nothing to remove *)
      change (render []) with (@nil ascii). rewrite !app_nil_r, rev_length, Nat.ltb_irrefl.
      destruct full; cbn [negb].
      + destruct (IH f ltac:(lia) (skip_slashes p rest) k []) as (k'&st'&part&R1&R2&R3&R4&R5); auto; [lia|apply skip_head|].
        exists k', st', part. change (render []) with (@nil ascii) in R1. rewrite app_nil_r in R1.
        split; [exact R1|]. split; [auto|split; [auto|split; [auto|]]].
        intros b Hb. rewrite <- R5 by auto. rewrite (Hb eq_refl), upn_nil. cbn [app].
        apply (CW []).
      + destruct (IH f ltac:(lia) (skip_slashes p rest) (S k) []) as (k'&st'&part&R1&R2&R3&R4&R5); auto; [lia|apply skip_head|].
        exists k', st', part. cbn [pre_of] in *. change (render []) with (@nil ascii) in R1. rewrite app_nil_r, ups_S in R1.
        split; [|split; [auto|split; [auto|split; [lia|]]]].
        * rewrite <- R1. f_equal.
          -- rewrite rev_app_distr. reflexivity.
          -- cbn [List.length]. rewrite app_length, rev_length. cbn. lia.
        * intros b Hb. rewrite <- R5 by auto. rewrite !app_nil_r. cbn [upn]. apply (CW (upn k b)).
    - assert (EL : s1 :: st1 <> []) by discriminate. destruct (exists_last EL) as (st2&d&E2). rewrite E2 in *.
      destruct (back_render (pre_of full root k) st2 d GS) as [B1 B2].
      apply Nat.ltb_lt in B1. rewrite B1, B2.
      assert (G2 : Forall good st2) by (apply Forall_app in GS; apply GS).
      destruct (IH f ltac:(lia) (skip_slashes p rest) k st2) as (k'&st'&part&R1&R2&R3&R4&R5); auto; [lia|apply skip_head|].
      exists k', st', part. split; [exact R1|]. split; [auto|split; [auto|split; [auto|]]].
      intros b Hb. rewrite <- R5 by auto. 
      etransitivity; [apply (CW (upn k b ++ st2 ++ [d]))|]. f_equal. unfold go.
      rewrite app_assoc. apply removelast_last. }
  (* a name *)
  assert (GC : good c) by (repeat split; auto).
  replace (S f) with (List.length c + (S f - List.length c)) by lia.
  destruct (copy_good c (S f - List.length c) full rest (rev (pre_of full root k ++ render st))
     (List.length (pre_of full root k)) GC HR) as (l'&EC&NL).
  rewrite EC. clear EC.
  destruct HR as [->|(x&r&->&Hx)].
  - assert (HQ : exists g, S f - List.length c = S g) by (exists (f - List.length c); cbn [List.length] in HF; lia).
    destruct HQ as [g ->]. exists k, st, c. cbn [loop0].
    split; [|split; [auto|split; [auto|split; [auto|]]]].
    + f_equal. rewrite <- rev_app_distr. now rewrite app_assoc.
    + intros b _. rewrite app_nil_r, walk_end by auto. destruct c; [congruence|]. cbn [tailc]. now rewrite app_assoc.
  - cbn [List.length] in HF.
    assert (HQ : exists g, S f - List.length c = S g /\ List.length r < g) by (exists (f - List.length c); lia).
    destruct HQ as (g&HQ&HG). rewrite HQ. cbn [loop0]. rewrite Hx. cbn [skip_slashes]. rewrite Hx.
    pose proof (skip_len r) as SLr.
    assert (LT : g < S f) by (destruct c; [congruence|]; cbn [List.length] in HQ; lia).
    destruct (IH g LT (skip_slashes p r) k (st ++ [c])) as (k'&st'&part&R1&R2&R3&R4&R5).
    + lia.
    + apply Forall_app; split; auto.
    + intros H. apply NZr. right. now apply skip_in.
    + apply skip_head.
    + exists k', st', part. split; [|split; [auto|split; [auto|split; [auto|]]]].
      * rewrite <- R1. f_equal. rewrite render_app. unfold render at 3. cbn [map List.concat].
        rewrite app_nil_r, !app_assoc, !rev_app_distr. cbn [rev app]. reflexivity.
      * intros b Hb. rewrite <- R5 by auto. etransitivity; [apply (CW (upn k b ++ st))|].
        cbn [skip_slashes]. rewrite Hx. f_equal. rewrite go_good by auto. now rewrite app_assoc.
Qed.

(** A clean input is copied. *)
Lemma loop_clean full pre : forall st st0 part f,
  Forall good st -> (part = [] \/ good part) -> List.length (render st ++ part) < f ->
  loop0 f full (render st ++ part) (rev (pre ++ render st0)) (List.length pre) (native p)
   = Some (rev (pre ++ render st0 ++ render st ++ part)).
Proof.
  induction st as [|c st IH]; intros st0 part f G GP HF.
  - cbn [render map List.concat app] in *. destruct GP as [->|GP].
    + destruct f; [cbn in HF; lia|]. cbn. now rewrite app_nil_r.
    + replace f with (List.length part + (f - List.length part)) by lia.
      destruct (copy_good part (f - List.length part) full [] (rev (pre ++ render st0)) (List.length pre) GP ltac:(auto)) as (l'&E&_).
      rewrite app_nil_r in E. rewrite E. destruct (f - List.length part) eqn:Q; [lia|]. cbn [loop0].
      f_equal. rewrite <- rev_app_distr. now rewrite app_assoc.
  - inversion G as [|? ? GC G']; subst. unfold render in HF |- * at 1. cbn [map List.concat] in HF |- *.
    fold (render st) in HF |- *. rewrite <- !app_assoc in HF |- *. cbn [app] in HF |- *.
    rewrite app_length in HF. cbn [List.length] in HF.
    replace f with (List.length c + (f - List.length c)) by lia.
    assert (SN : is_slash p (native p) = true) by apply slash_facts.
    destruct (copy_good c (f - List.length c) full (native p :: render st ++ part) (rev (pre ++ render st0)) (List.length pre) GC) as (l'&E&_).
    { right. eauto. }
    rewrite E. destruct (f - List.length c) as [|g] eqn:Q; [lia|]. cbn [loop0]. rewrite SN. cbn [skip_slashes]. rewrite SN.
    rewrite skip_noop.
    + assert (R : native p :: rev c ++ rev (pre ++ render st0) = rev (pre ++ render (st0 ++ [c]))).
      { rewrite render_app, render_one, !app_assoc, !rev_app_distr. reflexivity. }
      rewrite R. rewrite IH; auto; [|lia]. f_equal. f_equal. change (c :: st) with ([c] ++ st). rewrite !render_app, render_one, <- !app_assoc. reflexivity.
    + destruct st as [|d st']; cbn [render map List.concat app].
      * destruct GP as [->|(P1&P2&_)]; [exact I|]. destruct part; [congruence|]. apply P2. now left.
      * inversion G' as [|? ? GD _]; subst. destruct GD as (P1&P2&_). destruct d; [congruence|]. cbn. apply P2. now left.
Qed.
End P.
