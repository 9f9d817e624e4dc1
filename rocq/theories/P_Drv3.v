(** Proofs about compiler command lines: the whole line. *)
From Coq Require Import String List Arith Bool Ascii Lia.
From Verif Require Import M_Path M_Args S_Args P_Args M_Drv S_Drv T_Path P_Drv P_Drv2.
Import ListNotations.
Open Scope list_scope.

Lemma removed_good c p : Forall well (removed c p) /\ ordered (removed c p) = true.
Proof.
  unfold removed, removed_pre, removed_post, removed_always.
  assert (Q : forall l, forallb (fun r => match r with Only o | Starting o | Taking o => negb (Ascii.eqb (hd quote o) quote) | _ => true end) l = true -> Forall well l).
  { intros l H. apply Forall_forall. intros r I. rewrite forallb_forall in H. specialize (H r I).
    assert (K : forall o, negb (Ascii.eqb (hd quote o) quote) = true -> plain_head o).
    { intros [|ch o]; cbn [hd plain_head]; [rewrite Ascii.eqb_refl; discriminate|]. intros N E. subst. rewrite Ascii.eqb_refl in N. discriminate. }
    destruct r; cbn [well]; auto. }
  destruct p; destruct (family c) as [[]|[]| | | | | | | |]; destruct (local c); destruct (colour c); (split; [apply Q; reflexivity|reflexivity]).
Qed.

(** *** Text that is appended *)
Definition txt (o : arg_op) : str := match o with Append s => s | AddDelimiter => [space] | ClearArgs => [] end.
Definition said (ops : list arg_op) : str := flat_map txt ops.
Definition adds (ops : list arg_op) : Prop := Forall (fun o => o <> ClearArgs) ops.
Lemma run_said ops : adds ops -> forall a d, fst (run_args ops a d) = a ++ said ops.
Proof.
  induction 1 as [|o ops N F IH]; intros a d; [cbn; now rewrite app_nil_r|]. destruct o as [s| |]; [| |now destruct N]; cbn [run_args]; rewrite IH, <- app_assoc; reflexivity.
Qed.
Lemma said_app a b : said (a ++ b) = said a ++ said b. Proof. apply flat_map_app. Qed.
Definition rendered (outs : list str) : str := List.concat (map (fun o => o ++ [space]) outs).
Lemma rendered_app a b : rendered (a ++ b) = rendered a ++ rendered b.
Proof. unfold rendered. now rewrite map_app, concat_app. Qed.

(** *** Placeholders *)
Lemma find_spec o : o <> [] -> forall t, match find o t with Some (a, b) => cuts o t a b | None => ~ has o t end.
Proof.
  intros NO. induction t as [|x t IH]; cbn [find].
  - destruct (starts_with o []) eqn:S; [apply starts_with_iff in S; destruct S as [y E]; destruct o; [now destruct NO|discriminate]|].
    intros (a&b&E). destruct a; destruct o; try discriminate; now destruct NO.
  - destruct (starts_with o (x :: t)) eqn:S.
    + apply starts_with_iff in S. destruct S as [y E]. split; [|cbn; lia]. rewrite E, skipn_app, skipn_all, Nat.sub_diag. reflexivity.
    + destruct (find o t) as [[a b]|]; cbn [option_map fst snd].
      * destruct IH as [E M]. split; [now rewrite E|]. intros a' b' E'. destruct a' as [|y a']; [exfalso; now apply (starts_none _ _ S b')|].
        injection E' as -> E'. cbn. apply le_n_S. exact (M a' b' E').
      * intros (a'&b'&E'). destruct a' as [|y a']; [now apply (starts_none _ _ S b')|]. injection E' as -> E'. apply IH. now exists a', b'.
Qed.
Lemma shown_base c n : shown_name c n = from_base c n.
Proof. unfold shown_name, from_base. destruct (base c); reflexivity. Qed.
Lemma source_over c : (if teq (over c) [] then shown_name c (source c) else over c) = source_name c.
Proof. unfold source_name. destruct (over c) eqn:E; [cbn; apply shown_base|reflexivity]. Qed.

Lemma subst_spec c t :
  match substitute c t with
  | Pass_ => Forall (fun x => ~ has (fst (fst x)) t) (places c)
  | Did out skip => skip = false /\ adds out /\ exists l1 l2 o names more a b,
      places c = l1 ++ (o, names, more) :: l2 /\ Forall (fun x => ~ has (fst (fst x)) t) l1 /\ cuts o t a b /\
      said out = rendered (map (fun n => a ++ n ++ b) names ++ more)
  | Bad => False
  end.
Proof.
  assert (K : forall l1 l2 o n rest, o <> [] -> places c = l1 ++ (o, [n], []) :: l2 -> Forall (fun x => ~ has (fst (fst x)) t) l1 ->
     (~ has o t -> match rest with
        | Pass_ => Forall (fun x => ~ has (fst (fst x)) t) (places c)
        | Did out skip => skip = false /\ adds out /\ exists l1 l2 o names more a b,
           places c = l1 ++ (o, names, more) :: l2 /\ Forall (fun x => ~ has (fst (fst x)) t) l1 /\ cuts o t a b /\
           said out = rendered (map (fun n => a ++ n ++ b) names ++ more)
        | Bad => False end) ->
     match orelse (put_name c o n t) rest with
        | Pass_ => Forall (fun x => ~ has (fst (fst x)) t) (places c)
        | Did out skip => skip = false /\ adds out /\ exists l1 l2 o names more a b,
           places c = l1 ++ (o, names, more) :: l2 /\ Forall (fun x => ~ has (fst (fst x)) t) l1 /\ cuts o t a b /\
           said out = rendered (map (fun n => a ++ n ++ b) names ++ more)
        | Bad => False end).
  { intros l1 l2 o n rest NO P F R. unfold put_name. pose proof (find_spec o NO t) as S. destruct (find o t) as [[a b]|]; cbn [orelse]; [|now apply R].
    split; [reflexivity|]. split; [repeat (apply Forall_cons; [discriminate|]); apply Forall_nil|].
    exists l1, l2, o, [n], [], a, b. split; [exact P|]. split; [exact F|]. split; [exact S|].
    unfold said, rendered. cbn [flat_map txt map List.concat app]. rewrite !app_nil_r, <- !app_assoc. reflexivity. }
  unfold substitute. rewrite source_over, shown_base. cbn [first_of]. rewrite !orelse_pass.
  destruct (family c) as [clang_cl| | | | | | | | | ] eqn:F.
  2-10: (assert (PL : places c = [(L "%1", [source_name c], []); (L "%2", [from_base c (object c)], [])]) by (unfold places; rewrite F; reflexivity);
    apply (K [] [(L "%2", [from_base c (object c)], [])]); [discriminate|exact PL|constructor|]; intros N1;
    rewrite <- (orelse_pass (put_name c (L "%2") _ t));
    apply (K [(L "%1", [source_name c], [])] []); [discriminate|exact PL|constructor; [exact N1|constructor]|]; intros N2;
    rewrite PL; constructor; [exact N1|constructor; [exact N2|constructor]]).
  assert (PL : places c = [(L "%3", [pch_object c], []); (L "%4", using_files c, [[]]); (L "%1", [source_name c], []); (L "%2", [from_base c (object c)], [])]) by (unfold places; rewrite F; reflexivity).
  apply (K [] [(L "%4", using_files c, [[]]); (L "%1", [source_name c], []); (L "%2", [from_base c (object c)], [])]); [discriminate|exact PL|constructor|]. intros N3.
  assert (NO : L "%4" <> []) by discriminate. pose proof (find_spec (L "%4") NO t) as S4. destruct (find (L "%4") t) as [[a b]|]; cbn [orelse].
  - split; [reflexivity|]. split.
    + apply Forall_app. split; [|apply Forall_cons; [discriminate|apply Forall_nil]]. apply Forall_flat_map. apply Forall_forall. intros n _. repeat (apply Forall_cons; [discriminate|]). apply Forall_nil.
    + exists [(L "%3", [pch_object c], [])], [(L "%1", [source_name c], []); (L "%2", [from_base c (object c)], [])], (L "%4"), (using_files c), [[]], a, b.
      split; [exact PL|]. split; [constructor; [exact N3|constructor]|]. split; [exact S4|]. rewrite said_app, rendered_app. f_equal.
      clear. induction (using_files c) as [|n l IH]; [reflexivity|]. cbn [flat_map]. rewrite said_app, IH. cbn [map]. change (rendered ((a ++ n ++ b) :: map (fun n0 => a ++ n0 ++ b) l)) with (((a ++ n ++ b) ++ [space]) ++ rendered (map (fun n0 => a ++ n0 ++ b) l)).
      f_equal. unfold said. cbn [flat_map txt]. rewrite app_nil_r, <- !app_assoc. reflexivity.
  - apply (K [(L "%3", [pch_object c], []); (L "%4", using_files c, [[]])] [(L "%2", [from_base c (object c)], [])]); [discriminate|exact PL|repeat (constructor; auto)|]. intros N1.
    rewrite <- (orelse_pass (put_name c (L "%2") _ t)).
    apply (K [(L "%3", [pch_object c], []); (L "%4", using_files c, [[]]); (L "%1", [source_name c], [])] []); [discriminate|exact PL|repeat (constructor; auto)|]. intros N2.
    rewrite PL. repeat (constructor; auto).
Qed.

(** *** Tokens with their own rule *)
Lemma skip2 (d : ascii) r : skipn 2 (d :: "I"%char :: r) = r. Proof. reflexivity. Qed.
Lemma last_snoc (x : str) c : last (x ++ [c]) nul = c. Proof. induction x as [|a [|b x] IH]; [reflexivity|reflexivity|exact IH]. Qed.
Lemma rev_last (t : str) q w : rev t = q :: w -> t = rev w ++ [q].
Proof. intros H. rewrite <- (rev_involutive t), H. reflexivity. Qed.

Lemma start_I t x : dashed t (L "I" ++ x) <-> exists s, dashed s (L "I") /\ t = s ++ x.
Proof.
  unfold dashed. split.
  - intros [->| ->]; [exists (L "/I")|exists (L "-I")]; split; try reflexivity; cbn; auto.
  - intros (s&[->| ->]&->); cbn; auto.
Qed.
Lemma dashed_len s : dashed s (L "I") -> List.length s = 2. Proof. intros [->| ->]; reflexivity. Qed.

(** How the directory is found in an include option. *)
Lemma include_parts s x : dashed s (L "I") -> x <> [] -> x <> [quote] ->
  let t := s ++ x in
  exists q q' path start end_, t = s ++ q ++ path ++ q' /\
    (q = [] /\ hd nul path <> quote \/ q = [quote]) /\ (q' = [] /\ last path nul <> quote \/ q' = [quote]) /\
    (match skipn 2 t with c :: _ => if Ascii.eqb c quote then 3 else 2 | [] => 2 end) = start /\
    (match rev t with c :: _ => if Ascii.eqb c quote then List.length t - 1 else List.length t | [] => 0 end) = end_ /\
    (end_ <? start) = false /\ firstn (end_ - start) (skipn start t) = path /\ firstn start t = s ++ q /\ skipn end_ t = q'.
Proof.
  intros D N1 N2 t. pose proof (dashed_len s D) as LS.
  assert (SK : forall m y, skipn (2 + m) (s ++ y) = skipn m y) by (intros m y; destruct s as [|a [|b [|]]]; try discriminate; reflexivity).
  assert (FI : forall m y, firstn (2 + m) (s ++ y) = s ++ firstn m y) by (intros m y; destruct s as [|a [|b [|]]]; try discriminate; reflexivity).
  assert (E : exists q y, x = q ++ y /\ (q = [] /\ hd nul x <> quote \/ q = [quote]) /\
     (match skipn 2 t with c :: _ => if Ascii.eqb c quote then 3 else 2 | [] => 2 end) = 2 + List.length q).
  { unfold t. change (skipn 2 (s ++ x)) with (skipn (2 + 0) (s ++ x)). rewrite (SK 0 x). cbn [skipn]. destruct x as [|c x]; [now destruct N1|]. destruct (Ascii.eqb_spec c quote) as [->|N].
    - exists [quote], x. split; [reflexivity|]. split; [right; reflexivity|reflexivity].
    - exists [], (c :: x). split; [reflexivity|]. split; [left; split; [reflexivity|exact N]|reflexivity]. }
  destruct E as (q&y&EX&HQ&ST). rewrite ST.
  assert (NY : q = [quote] -> y <> []) by (intros -> ->; apply N2; rewrite EX; reflexivity).
  assert (E : exists path q', y = path ++ q' /\ (q' = [] /\ last y nul <> quote \/ q' = [quote]) /\
     (match rev t with c :: _ => if Ascii.eqb c quote then List.length t - 1 else List.length t | [] => 0 end) = 2 + List.length q + List.length path).
  { destruct (rev t) as [|l w] eqn:R; [apply (f_equal (@List.length ascii)) in R; rewrite rev_length in R; unfold t in R; rewrite app_length, LS in R; discriminate|].
    apply rev_last in R. assert (LT : List.length t = 2 + List.length q + List.length y) by (unfold t; rewrite EX, !app_length, LS; lia).
    destruct y as [|y0 y1] eqn:EY.
    - (* then q = [] : x is empty *) destruct HQ as [[-> _]| ->]; [exfalso; apply N1; rewrite EX; reflexivity|exfalso; now apply NY].
    - rewrite <- EY in *. assert (YN : y <> []) by (subst; discriminate). clear EY y0 y1.
      assert (LY : last y nul = l /\ y = removelast y ++ [l]).
      { pose proof (app_removelast_last nul YN) as G. assert (last y nul = l).
        { unfold t in R. rewrite EX, G, !app_assoc in R. now apply app_inj_tail in R. } split; [assumption|]. rewrite <- H. exact G. }
      destruct LY as [L1 L2]. destruct (Ascii.eqb_spec l quote) as [->|N].
      + exists (removelast y), [quote]. split; [exact L2|]. split; [right; reflexivity|]. rewrite LT. apply (f_equal (@List.length ascii)) in L2. rewrite app_length in L2. cbn in L2. lia.
      + exists y, []. split; [now rewrite app_nil_r|]. split; [left; split; [reflexivity|congruence]|exact LT]. }
  destruct E as (path&q'&EY&HQ'&EN). rewrite EN.
  exists q, q', path, (2 + List.length q), (2 + List.length q + List.length path).
  split; [unfold t; now rewrite EX, EY|]. split.
  { destruct HQ as [[-> H]| ->]; [left|right; reflexivity]. split; [reflexivity|]. rewrite EX in H. cbn in H. destruct path as [|a path]; [discriminate|]. rewrite EY in H. exact H. }
  split.
  { destruct HQ' as [[-> H]| ->]; [left|right; reflexivity]. split; [reflexivity|]. rewrite EY, app_nil_r in H. exact H. }
  split; [reflexivity|]. split; [reflexivity|]. split; [apply Nat.ltb_ge; lia|].
  assert (T1 : t = s ++ q ++ path ++ q') by (unfold t; now rewrite EX, EY).
  split; [|split].
  - rewrite T1, SK. rewrite skipn_app, skipn_all, Nat.sub_diag. cbn [skipn app]. replace (2 + List.length q + List.length path - (2 + List.length q)) with (List.length path) by lia.
    rewrite firstn_app, firstn_all, Nat.sub_diag. cbn [firstn]. apply app_nil_r.
  - rewrite T1, FI. f_equal. rewrite firstn_app, firstn_all, Nat.sub_diag. cbn [firstn]. apply app_nil_r.
  - rewrite T1. rewrite <- Nat.add_assoc, SK. rewrite app_assoc, skipn_app, <- app_length, skipn_all, Nat.sub_diag. reflexivity.
Qed.

Lemma parts_unique s q q' path r r' path' :
  dashed s (L "I") -> q ++ path ++ q' = r ++ path' ++ r' -> q ++ path ++ q' <> [] -> q ++ path ++ q' <> [quote] ->
  (q = [] /\ hd nul path <> quote \/ q = [quote]) -> (q' = [] /\ last path nul <> quote \/ q' = [quote]) ->
  (r = [] /\ hd nul path' <> quote \/ r = [quote]) -> (r' = [] /\ last path' nul <> quote \/ r' = [quote]) ->
  q = r /\ path = path' /\ q' = r'.
Proof.
  intros D E N1 N2 Q Q' R R'.
  assert (QR : q = r).
  { destruct Q as [[-> H]| ->], R as [[-> H']| ->]; try reflexivity; exfalso; cbn [app] in E.
    - destruct path as [|a path]; cbn [app] in E, N2.
      + destruct Q' as [[-> _]| ->]; [discriminate|]. now apply N2.
      + injection E as -> _. now apply H.
    - destruct path' as [|a path']; cbn [app] in E.
      + destruct R' as [[-> _]| ->]; [discriminate|]. injection E as E. apply N2. cbn. now rewrite E.
      + injection E as <- _. now apply H'. }
  subst r. apply app_inv_head in E. split; [reflexivity|].
  destruct Q' as [[-> H]| ->], R' as [[-> H']| ->]; rewrite ?app_nil_r in E.
  - auto.
  - exfalso. apply H. rewrite E. apply last_snoc.
  - exfalso. apply H'. rewrite <- E. apply last_snoc.
  - apply app_inj_tail in E. split; [apply E|reflexivity].
Qed.

Lemma include_spec c t clang_cl : family c = Cl clang_cl -> (local c = false -> attached t) ->
  match include_dir c t with
  | Pass_ => forall s q q' path, local c = false -> dashed s (L "I") -> t = s ++ q ++ path ++ q' ->
       (q = [] /\ hd nul path <> quote \/ q = [quote]) -> (q' = [] /\ last path nul <> quote \/ q' = [quote]) -> is_full (plt c) path = true
  | Did out skip => skip = false /\ adds out /\ exists n, special c CompilePreprocessed t [n] /\ said out = n ++ [space]
  | Bad => False
  end.
Proof.
  intros F AT. unfold include_dir. destruct (local c) eqn:LC; cbn [negb andb]; [discriminate|].
  destruct (is_start t (L "I")) eqn:S.
  - apply is_start_spec in S. destruct S as (x&S). apply start_I in S. destruct S as (s&D&->). destruct (AT eq_refl s D) as [N1 N2].
    assert (X1 : x <> []) by (intros ->; apply N1; apply app_nil_r). assert (X2 : x <> [quote]) by (intros ->; now apply N2).
    destruct (include_parts s x D X1 X2) as (q&q'&path&start&end_&E&Q&Q'&ES&EE&LT&EP&EF&EK). rewrite ES, EE, LT, EP.
    destruct (is_full (plt c) path) eqn:FU.
    + intros s0 r r' path0 _ D0 E0 R R'. assert (s0 = s) by (clear - D D0 E0; destruct D as [->| ->], D0 as [->| ->]; try reflexivity; discriminate).
      subst s0. assert (EX : x = q ++ path ++ q') by (apply app_inv_head in E; exact E). assert (E2 : q ++ path ++ q' = r ++ path0 ++ r') by (rewrite <- EX; apply app_inv_head in E0; exact E0).
      rewrite EX in X1, X2. destruct (parts_unique s q q' path r r' path0 D E2 X1 X2 Q Q' R R') as (_&<-&_). exact FU.
    + rewrite EF, EK. split; [|split].
      * unfold strip_with_arg_cl. destruct (is_start (s ++ x) (L "I")); [|reflexivity]. destruct (is_arg (s ++ x) (L "I")) eqn:A; [|reflexivity].
        exfalso. apply is_arg_spec in A. apply (dashed_len) in A. rewrite app_length, (dashed_len _ D) in A. destruct x; [now apply X1|cbn in A; lia].
      * repeat (apply Forall_cons; [discriminate|]). apply Forall_nil.
      * exists (s ++ q ++ remote_root c ++ [bslash] ++ path ++ q'). split.
        -- eapply sp_include; eauto.
        -- unfold said. cbn [flat_map txt]. rewrite <- !app_assoc, !app_nil_r. reflexivity.
  - intros s q q' path _ D -> _ _. exfalso. assert (S1 : is_start (s ++ q ++ path ++ q') (L "I") = true).
    { apply is_start_spec. exists (q ++ path ++ q'). apply start_I. eauto. } rewrite S in S1. discriminate.
Qed.

Lemma slash_spec t : match slash_fix t with
  | Pass_ => forall s x, dashed s (L "I") -> t <> s ++ [quote] ++ x ++ [bslash; quote]
  | Did out skip => skip = false /\ adds out /\ exists s x, dashed s (L "I") /\ t = s ++ [quote] ++ x ++ [bslash; quote] /\ said out = (s ++ [quote] ++ x ++ [quote]) ++ [space]
  | Bad => False
  end.
Proof.
  unfold slash_fix. destruct (is_start t (L "I" ++ [quote]) && ends_with t [bslash; quote]) eqn:B.
  - apply andb_true_iff in B. destruct B as [S E]. apply is_start_spec in S. destruct S as (y&S). rewrite <- app_assoc in S. apply start_I in S. destruct S as (s&D&->).
    apply ends_with_iff in E. destruct E as (w&E). split; [reflexivity|]. split; [repeat (apply Forall_cons; [discriminate|]); apply Forall_nil|].
    assert (W : exists x, y = x ++ [bslash; quote]).
    { destruct D as [->| ->]; cbn [app] in E.
      - destruct w as [|a [|b [|d w]]]; cbn [app] in E; try discriminate. injection E as _ _ _ E. exists w. exact E.
      - destruct w as [|a [|b [|d w]]]; cbn [app] in E; try discriminate. injection E as _ _ _ E. exists w. exact E. }
    destruct W as (x&->). exists s, x. split; [exact D|]. split; [reflexivity|]. unfold said. cbn [flat_map txt].
    assert (G : s ++ [quote] ++ x ++ [bslash; quote] = (s ++ [quote] ++ x) ++ [bslash; quote]) by now rewrite <- !app_assoc.
    rewrite G. rewrite (app_length (s ++ [quote] ++ x)). replace (List.length (s ++ [quote] ++ x) + List.length [bslash; quote] - 2) with (List.length (s ++ [quote] ++ x)) by (cbn; lia).
    rewrite firstn_app, firstn_all, Nat.sub_diag. cbn [firstn]. rewrite app_nil_r, <- !app_assoc. reflexivity.
  - intros s x D ->. assert (S : is_start (s ++ [quote] ++ x ++ [bslash; quote]) (L "I" ++ [quote]) = true).
    { apply is_start_spec. exists (x ++ [bslash; quote]). rewrite <- app_assoc. apply start_I. eauto. }
    assert (E : ends_with (s ++ [quote] ++ x ++ [bslash; quote]) [bslash; quote] = true).
    { apply ends_with_iff. exists (s ++ [quote] ++ x). now rewrite <- !app_assoc. }
    rewrite S, E in B. discriminate.
Qed.

Definition fine (c : ctx) (p : pass) (t : str) : Prop :=
  (exists clang_cl, family c = Cl clang_cl) -> p = CompilePreprocessed -> local c = false -> attached t.
Lemma own_spec c p t : fine c p t ->
  match own c p t with
  | Pass_ => forall n, ~ special c p t n
  | Did out skip => skip = false /\ adds out /\ exists n, special c p t [n] /\ said out = n ++ [space]
  | Bad => False
  end.
Proof.
  intros FN. unfold own. destruct (family c) as [clang_cl| | | | | | | | | ] eqn:F.
  2-10: (intros n X; inversion X; congruence).
  assert (SL : (p <> CompilePreprocessed \/ include_dir c t = Pass_) -> (forall n, special c p t n -> exists s x, dashed s (L "I") /\ t = s ++ [quote] ++ x ++ [bslash; quote]) ->
    match slash_fix t with
    | Pass_ => forall n, ~ special c p t n
    | Did out skip => skip = false /\ adds out /\ exists n, special c p t [n] /\ said out = n ++ [space]
    | Bad => False end).
  { intros PC NX. pose proof (slash_spec t) as S. destruct (slash_fix t) as [|out skip|].
    - intros n X. destruct (NX n X) as (s&x&D&E). now apply (S s x D).
    - destruct S as (A&B&s&x&D&E&SA). split; [exact A|]. split; [exact B|]. exists (s ++ [quote] ++ x ++ [quote]). split; [|exact SA].
      eapply sp_slash; eauto. destruct PC as [PC|PC]; [left; exact PC|]. destruct p; try (left; discriminate). right. destruct (local c) eqn:LC; [left; reflexivity|]. right.
      assert (FN' : local c = false -> attached t) by (intros _; apply FN; eauto). pose proof (include_spec c t clang_cl F FN') as I. rewrite PC in I.
      apply (I s [quote] [quote] (x ++ [bslash]) LC D); [now rewrite E, <- !app_assoc|right; reflexivity|right; reflexivity].
    - exact S. }
  destruct p; cbn [orelse].
  - apply SL; [left; discriminate|]. intros n X. inversion X; subst; try discriminate; eauto.
  - destruct (winrt t) as [|out skip|] eqn:W; unfold winrt, strip_token_cl in W; destruct (is_arg t (L "ZW")) eqn:A; try discriminate; cbn [orelse].
    + apply SL; [left; discriminate|]. intros n X. inversion X as [? ? ? D| |]; subst; try discriminate; eauto. apply is_arg_spec in D. congruence.
    + injection W as <- <-. split; [reflexivity|]. split; [repeat (apply Forall_cons; [discriminate|]); apply Forall_nil|]. exists (L "/D__cplusplus_winrt").
      split; [|reflexivity]. apply is_arg_spec in A. eapply sp_winrt; eauto.
  - assert (FN' : local c = false -> attached t) by (intros LC; apply FN; eauto). pose proof (include_spec c t clang_cl F FN') as I.
    destruct (include_dir c t) as [|out skip|] eqn:W; cbn [orelse].
    + apply SL; [right; reflexivity|]. intros n X. inversion X as [|? s q q' path ? ? LC D E Q Q' FU|]; subst; try discriminate; eauto.
      exfalso. rewrite (I s q q' path LC D eq_refl Q Q') in FU. discriminate.
    + exact I.
    + exact I.
  - apply SL; [left; discriminate|]. intros n X. inversion X; subst; try discriminate; eauto.
Qed.

Lemma lang_spec c p t l : match lang c p t (hd [] l) with
  | Pass_ => ~ (renames c p /\ t = L "-x" /\ l <> [] /\ hd [] l <> [])
  | Did out skip => skip = true /\ adds out /\ renames c p /\ t = L "-x" /\ hd [] l <> [] /\ said out = rendered [L "-x"; language_kept (hd [] l)]
  | Bad => False
  end.
Proof.
  unfold lang, renames. destruct (family c) as [|clang| | | | | | | | ] eqn:F; try (intros ((_&(x&X)&_)&_); discriminate).
  destruct p; try (intros ((X&_)&_); discriminate). destruct (local c) eqn:LC; [|intros ((_&_&X&_)&_); discriminate].
  unfold x_language. destruct (upd_x c) eqn:U; cbn [andb]; [|intros ((_&_&_&X)&_); discriminate].
  destruct (teq t (L "-x")) eqn:T; cbn [andb]; [apply teq_eq in T; subst t|apply teq_ne in T; intros (_&X&_); now apply T].
  destruct (teq (hd [] l) []) eqn:N; cbn [negb]; [apply teq_eq in N; intros (_&_&_&X); now apply X|apply teq_ne in N].
  split; [reflexivity|]. split; [repeat (apply Forall_cons; [discriminate|]); apply Forall_nil|]. split; [repeat split; eauto|]. split; [reflexivity|]. split; [exact N|].
  unfold said, rendered, language_kept. cbn [flat_map txt map List.concat]. rewrite !app_nil_r, <- !app_assoc. reflexivity.
Qed.

Lemma line_spec c p : forall toks, Forall (fun t => t <> []) toks -> Forall (fine c p) toks ->
  exists ops outs, each_token (one_token c p) toks = Some ops /\ adds ops /\ edited c p toks outs /\ said ops = rendered outs.
Proof.
  intros toks. remember (List.length toks) as n eqn:En. assert (Hn : List.length toks <= n) by lia. clear En. revert toks Hn.
  induction n as [|n IH]; intros [|t l] Hn NE FI; try (cbn in Hn; lia); try (exists [], []; repeat split; constructor).
  inversion NE as [|? ? NE1 NE2]; subst. inversion FI as [|? ? F1 F2]; subst. cbn [List.length] in Hn.
  cbn [each_token]. rewrite step. unfold rows.
  destruct (removed_good c p) as [WG OG]. pose proof (rows_spec t _ WG OG) as R.
  destruct (first_of (map (row_act t) (removed c p))) as [|out skip|]; cbn [orelse]; [| |destruct R].
  - pose proof (lang_spec c p t l) as LA. destruct (lang c p t (hd [] l)) as [|out skip|]; cbn [orelse]; [| |destruct LA].
    + assert (NX : ~ (renames c p /\ t = L "-x" /\ l <> [])).
      { intros (X1&X2&X3). apply LA. repeat split; auto; try apply X1. destruct l as [|a l]; [now destruct X3|]. inversion NE2; subst. assumption. }
      assert (LL : List.length l <= n) by lia. destruct (IH l LL NE2 F2) as (ops&outs&E&A&ED&SA).
      pose proof (own_spec c p t F1) as OW. destruct (own c p t) as [|out skip|]; cbn [orelse]; [| |destruct OW].
      * pose proof (subst_spec c t) as SB. destruct (substitute c t) as [|out skip|]; cbn [orelse]; [| |destruct SB].
        -- rewrite E. cbn [option_map]. exists ([Append t; AddDelimiter] ++ ops), ([t] ++ outs). split; [reflexivity|].
           split; [repeat (apply Forall_cons; [discriminate|]); exact A|]. split; [apply ed_keep; auto; now apply bc_same|].
           rewrite said_app, rendered_app, SA. unfold rendered. cbn. now rewrite ?app_nil_r, <- ?app_assoc.
        -- destruct SB as (->&AO&l1&l2&o&names&more&a&b&P1&P2&P3&P4). rewrite E. cbn [option_map]. exists (out ++ ops), ((map (fun n => a ++ n ++ b) names ++ more) ++ outs).
           split; [reflexivity|]. split; [now apply Forall_app|]. split; [apply ed_keep; auto; eapply bc_place; eauto|]. rewrite said_app, rendered_app, SA, P4. reflexivity.
      * destruct OW as (->&AO&w&SP&SW). rewrite E. cbn [option_map]. exists (out ++ ops), ([w] ++ outs). split; [reflexivity|]. split; [now apply Forall_app|].
        split; [apply ed_keep; auto; now apply bc_special|]. rewrite said_app, rendered_app, SA, SW. unfold rendered. cbn. now rewrite ?app_nil_r.
    + destruct LA as (->&AO&RN&->&NN&SW). destruct l as [|a l]; [now destruct NN|]. cbn [hd] in *. inversion NE2; subst. inversion F2; subst.
      assert (LL : List.length l <= n) by (cbn in Hn; lia). destruct (IH l LL ltac:(assumption) ltac:(assumption)) as (ops&outs&E&A&ED&SA).
      rewrite E. cbn [option_map]. exists (out ++ ops), ([L "-x"; language_kept a] ++ outs). split; [reflexivity|]. split; [now apply Forall_app|].
      split; [cbn [app]; now apply ed_language|]. rewrite said_app, rendered_app, SA, SW. reflexivity.
  - destruct R as (->&(r&I&CV)&TK). destruct skip.
    + destruct TK as (r'&I'&T'). destruct l as [|a l].
      * exists [], []. cbn. repeat split; try constructor. eapply ed_drop_last; eauto.
      * inversion NE2; subst. inversion F2; subst. assert (LL : List.length l <= n) by (cbn in Hn; lia).
        destruct (IH l LL ltac:(assumption) ltac:(assumption)) as (ops&outs&E&A&ED&SA). rewrite E. cbn [option_map app]. exists ops, outs. split; [reflexivity|]. split; [exact A|]. split; [eapply ed_drop_arg; eauto|exact SA].
    + assert (LL : List.length l <= n) by lia. destruct (IH l LL NE2 F2) as (ops&outs&E&A&ED&SA). rewrite E. cbn [option_map app]. exists ops, outs. split; [reflexivity|]. split; [exact A|]. split; [eapply ed_drop; eauto|exact SA].
Qed.
Print Assumptions line_spec.
