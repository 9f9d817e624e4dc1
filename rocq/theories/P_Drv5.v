(** Proofs about compiler command lines: the worker's command line is the one used here. *)
From Coq Require Import String List Arith Bool Ascii Lia.
From Verif Require Import M_Path M_Args S_Args P_Args M_Drv S_Drv T_Path P_Drv P_Drv2 P_Drv3 P_Drv4.
Import ListNotations.
Open Scope list_scope.

Lemma neighbours_tail R a l : neighbours R (a :: l) -> neighbours R l.
Proof. intros H pre x y post E. apply (H (a :: pre) x y post). now rewrite E. Qed.
Lemma neighbours_head R a b l : neighbours R (a :: b :: l) -> R a b.
Proof. intros H. apply (H [] a b l). reflexivity. Qed.

Definition dep_rows : list row := [Only (L "-MD"); Taking (L "-MF")].
Lemma dep_good : Forall well dep_rows /\ ordered dep_rows = true.
Proof. split; [|reflexivity]. repeat (apply Forall_cons; [discriminate|]). apply Forall_nil. Qed.
Lemma dep_act t : dependency_option t = first_of (map (row_act t) dep_rows).
Proof. reflexivity. Qed.

Section Remote.
Variables (c : ctx) (clang : bool).
Hypothesis F : family c = Gcc clang.
Hypothesis LO : local c = true.
Notation CP := CompilePreprocessed.
Let front := (if clang then [Taking (L "-I")] else []) ++ [Taking (L "-isysroot")].
Let back := [Taking (L "-include-pch"); Taking (L "-include")] ++ removed_always (family c) (colour c).
Lemma removed_here : removed c CP = front ++ dep_rows ++ back.
Proof. unfold removed, removed_post, back, front. rewrite F, LO. now rewrite <- !app_assoc. Qed.
Lemma removed_away : removed (away c) CP = front ++ back.
Proof. unfold removed, removed_post, back, front, away. cbn [family local colour]. rewrite F. now rewrite <- !app_assoc. Qed.
Lemma rows_same t : dependency_option t = Pass_ -> rows (away c) CP t = rows c CP t.
Proof. intros D. unfold rows. rewrite removed_here, removed_away, !map_app, !first_app, <- dep_act, D. reflexivity. Qed.
Lemma dep_here t o s : dependency_option t = Did o s -> o = [] /\ rows c CP t = Did [] s.
Proof.
  intros D. destruct (dep_good) as [W O]. pose proof (rows_spec t dep_rows W O) as S. rewrite <- dep_act, D in S. destruct S as (->&(r&I&C)&T). split; [reflexivity|].
  destruct (removed_good c CP) as [W' O']. pose proof (rows_spec t (removed c CP) W' O') as S'. fold (rows c CP t) in S'.
  assert (IN : forall r, In r dep_rows -> In r (removed c CP)) by (intros r' I'; rewrite removed_here; apply in_or_app; right; apply in_or_app; now left).
  destruct (rows c CP t) as [|o' s'|]; [destruct (S' r (IN r I) C)| |destruct S'].
  destruct S' as (->&_&T'). f_equal. destruct s, s'; try reflexivity.
  - destruct T as (r'&I'&K). destruct (T' r' (IN r' I') K).
  - exfalso. destruct T' as (r'&I'&K).
    assert (U : forall o, unquoted t o -> plain_head o -> t = L "-MD" \/ exists x, o = L "-MF" ++ x).
    { intros o U P. destruct I as [<-|[<-|[]]]; cbn [covers] in C; [left; exact C|]. destruct C as (x&C). right. exists x. symmetry. eapply unquoted_two; [exact C|discriminate|exact P|exact U]. }
    assert (V : forall o, unquoted t o -> plain_head o -> o = L "-MD" \/ exists x, o = L "-MF" ++ x).
    { intros o Uo P. destruct (U o Uo P) as [->|H]; [left|right; exact H]. symmetry. eapply unquoted_two; [apply uq_here|discriminate|exact P|exact Uo]. }
    rewrite removed_here in I'. apply in_app_or in I'. destruct I' as [I'|I']; [|apply in_app_or in I'; destruct I' as [I'|I']].
    + unfold front in I'. apply in_app_or in I'. assert (B : r' = Taking (L "-I") \/ r' = Taking (L "-isysroot")) by (destruct I' as [I'|[<-|[]]]; [destruct clang; [destruct I' as [<-|[]]; now left|destruct I']|now right]).
      destruct B as [->| ->]; cbn [takes] in K; (destruct (V _ K ltac:(discriminate)) as [B|(x&B)]; discriminate).
    + exact (T r' I' K).
    + unfold back in I'. rewrite F in I'. destruct I' as [<-|[<-|I']]; cbn [takes] in K; [destruct (V _ K ltac:(discriminate)) as [B|(x&B)]; discriminate|destruct (V _ K ltac:(discriminate)) as [B|(x&B)]; discriminate|].
      cbn [removed_always] in I'. destruct (colour c); [|destruct I']. destruct I' as [<-|[<-|[]]]; destruct K.
Qed.
Lemma dep_none t : ~ listed c t -> dependency_option t = Pass_ /\ (forall nx, x_language c t nx = Pass_) /\ rows (away c) CP t = Pass_.
Proof.
  intros N. assert (D : dependency_option t = Pass_).
  { destruct dep_good as [W O]. pose proof (rows_spec t dep_rows W O) as S. rewrite <- dep_act in S. destruct (dependency_option t) as [|o s|]; [reflexivity| |destruct S].
    destruct S as (_&(r&I&C)&_). destruct N. left. exists r. split; [|exact C]. rewrite removed_here. apply in_or_app. right. apply in_or_app. now left. }
  split; [exact D|]. split.
  - intros nx. destruct (lang_only c t nx) as [E|E]; [exact E|]. destruct N. now right.
  - rewrite rows_same by exact D. destruct (removed_good c CP) as [W' O']. pose proof (rows_spec t (removed c CP) W' O') as S'. fold (rows c CP t) in S'.
    destruct (rows c CP t) as [|o' s'|]; [reflexivity| |destruct S']. destruct S' as (_&(r&I&C)&_). destruct N. left. now exists r.
Qed.
Lemma worker_step t nx : one_token (away c) CP t nx = orelse (rows (away c) CP t) (orelse (substitute c t) (Did [Append t; AddDelimiter] false)).
Proof.
  rewrite step. assert (LA : lang (away c) CP t nx = Pass_) by (unfold lang, away; cbn [family local]; now rewrite F).
  assert (OW : own (away c) CP t = Pass_) by (unfold own, away; cbn [family]; now rewrite F). rewrite LA, OW. cbn [orelse]. reflexivity.
Qed.
Lemma here_step t nx : one_token c CP t nx = orelse (rows c CP t) (orelse (x_language c t nx) (orelse (substitute c t) (Did [Append t; AddDelimiter] false))).
Proof.
  rewrite step. assert (LA : lang c CP t nx = x_language c t nx) by (unfold lang; now rewrite F, LO).
  assert (OW : own c CP t = Pass_) by (unfold own; now rewrite F). now rewrite LA, OW.
Qed.
Lemma remote_step t nx : for_remote c t nx = orelse (x_language c t nx) (orelse (dependency_option t) (Did [Append t; AddDelimiter] false)).
Proof. unfold for_remote. rewrite F. cbn [first_of]. now rewrite !orelse_pass, orelse_assoc. Qed.
Lemma subst_none t : ~ has (L "%1") t -> ~ has (L "%2") t -> substitute c t = Pass_.
Proof.
  intros N1 N2. unfold substitute, put_name. rewrite F. cbn [first_of].
  pose proof (find_spec (L "%1") ltac:(discriminate) t) as S1. pose proof (find_spec (L "%2") ltac:(discriminate) t) as S2.
  destruct (find (L "%1") t) as [[a b]|]; [destruct N1; exists a, b; apply S1|]. destruct (find (L "%2") t) as [[a b]|]; [destruct N2; exists a, b; apply S2|]. reflexivity.
Qed.
Lemma subst_shape t : substitute c t = Pass_ \/ exists o, substitute c t = Did o false.
Proof.
  unfold substitute, put_name. rewrite F. cbn [first_of]. destruct (find (L "%1") t) as [[a b]|]; [right; eexists; reflexivity|].
  destruct (find (L "%2") t) as [[a b]|]; [right; eexists; reflexivity|left; reflexivity].
Qed.
Definition concrete : list str := [L "cpp-output"; L "c++-cpp-output"; L "objective-c-cpp-output"; L "objective-c++-cpp-output"].
Lemma language_kinds l : language_kept l = l \/ In (language_kept l) concrete.
Proof.
  unfold language_kept. destruct (teq l (L "c")); [right; now left|].
  destruct (teq l (L "c++")) eqn:E1; [apply teq_eq in E1; subst; right; right; now left|]. destruct (teq l (L "objective-c")) eqn:E2; [apply teq_eq in E2; subst; right; right; right; now left|].
  destruct (teq l (L "objective-c++")) eqn:E3; [apply teq_eq in E3; subst; right; right; right; right; now left|]. now left.
Qed.
Lemma worker_plain t nx : rows (away c) CP t = Pass_ -> substitute c t = Pass_ -> one_token (away c) CP t nx = Did [Append t; AddDelimiter] false.
Proof. intros R S. rewrite worker_step, R, S. reflexivity. Qed.
Lemma kept_language l nx : ~ listed c l -> ~ has (L "%1") l -> ~ has (L "%2") l -> single l ->
  single (language_kept l) /\ one_token (away c) CP (language_kept l) nx = Did [Append (language_kept l); AddDelimiter] false.
Proof.
  intros NL N1 N2 S. destruct (language_kinds l) as [->|I].
  - split; [exact S|]. apply worker_plain; [apply dep_none; exact NL|now apply subst_none].
  - assert (SU : substitute c (language_kept l) = Pass_ /\ rows (away c) CP (language_kept l) = Pass_ /\ single (language_kept l)).
    { unfold substitute, put_name, rows. rewrite removed_away, F. unfold front, back. rewrite F.
      destruct I as [<-|[<-|[<-|[<-|[]]]]]; (split; [reflexivity|]; split; [destruct clang, (colour c); reflexivity|]; split; [discriminate|split; reflexivity]). }
    destruct SU as (SU&RO&SI). split; [exact SI|]. now apply worker_plain.
Qed.
Lemma x_plain nx : one_token (away c) CP (L "-x") nx = Did [Append (L "-x"); AddDelimiter] false.
Proof.
  apply worker_plain; [|unfold substitute, put_name; now rewrite F]. unfold rows. rewrite removed_away. unfold front, back. rewrite F. destruct clang, (colour c); reflexivity.
Qed.
Lemma each_cons one (t : str) (r : list str) o : one t (hd [] r) = Did o false -> each_token one (t :: r) = option_map (app o) (each_token one r).
Proof. intros E. cbn [each_token]. now rewrite E. Qed.
Lemma each_skip one (t b : str) (r : list str) o : one t b = Did o true -> each_token one (t :: b :: r : list str) = option_map (app o) (each_token one r).
Proof. intros E. cbn [each_token hd]. now rewrite E. Qed.

Lemma remote_line : forall n toks, List.length toks <= n -> Forall single toks -> neighbours (argument_follows c) toks ->
  exists toks1 ops1 ops, each_token (for_remote c) toks = Some ops1 /\ adds ops1 /\ said ops1 = rendered toks1 /\ Forall single toks1 /\
    each_token (one_token c CP) toks = Some ops /\ each_token (one_token (away c) CP) toks1 = Some ops.
Proof.
  assert (K : forall t, adds [Append t; AddDelimiter]) by (intros t; repeat (apply Forall_cons; [discriminate|]); apply Forall_nil).
  induction n as [|n IH]; intros [|t r] Hn SI NB; try (cbn in Hn; lia); try (exists [], [], []; repeat split; constructor).
  inversion SI as [|? ? S1 S2]; subst. cbn in Hn. assert (NB' := neighbours_tail _ _ _ NB).
  destruct (lang_only c t (hd [] r)) as [XP|Ex].
  - (* not a language *)
    destruct (dependency_option t) as [|o s|] eqn:D.
    + (* sent as it is *)
      assert (FR : for_remote c t (hd [] r) = Did [Append t; AddDelimiter] false) by (rewrite remote_step, XP, D; reflexivity).
      pose proof (rows_same t D) as RS.
      destruct (removed_good c CP) as [W' O']. pose proof (rows_spec t (removed c CP) W' O') as S'. fold (rows c CP t) in S'.
      destruct (rows c CP t) as [|o s|] eqn:RC; [| |destruct S'].
      * destruct (IH r ltac:(lia) S2 NB') as (toks1&ops1&ops&E1&A1&SA&SI1&E2&E3).
        assert (HS : exists o, one_token c CP t (hd [] r) = Did o false /\ forall nx, one_token (away c) CP t nx = Did o false).
        { destruct (subst_shape t) as [SU|(o&SU)].
          - exists [Append t; AddDelimiter]. split; [rewrite here_step, RC, XP, SU; reflexivity|intros nx; rewrite worker_step, RS, SU; reflexivity].
          - exists o. split; [rewrite here_step, RC, XP, SU; reflexivity|intros nx; rewrite worker_step, RS, SU; reflexivity]. }
        destruct HS as (o&H1&H2). exists (t :: toks1), ([Append t; AddDelimiter] ++ ops1), (o ++ ops).
        rewrite (each_cons _ _ _ _ FR), E1, (each_cons _ _ _ _ H1), E2, (each_cons _ _ _ _ (H2 _)), E3. repeat split; auto.
        -- apply Forall_app. split; [apply K|exact A1].
        -- cbn [app]. unfold said in *. cbn [flat_map txt]. rewrite SA. change (rendered (t :: toks1)) with ((t ++ [space]) ++ rendered toks1). now rewrite <- app_assoc.
      * destruct S' as (->&(r0&I0&C0)&T0).
        assert (H1 : one_token c CP t (hd [] r) = Did [] s) by (rewrite here_step, RC; reflexivity).
        assert (H2 : forall nx, one_token (away c) CP t nx = Did [] s) by (intros nx; rewrite worker_step, RS; reflexivity).
        destruct s.
        -- destruct r as [|b r].
           ++ exists [t], [Append t; AddDelimiter], []. split; [rewrite (each_cons _ _ _ _ FR); reflexivity|]. split; [apply K|]. split; [cbn; now rewrite !app_nil_r|].
              split; [constructor; auto|]. split; [cbn [each_token hd] in *; rewrite H1; reflexivity|cbn [each_token]; rewrite H2; reflexivity].
           ++ inversion S2 as [|? ? S3 S4]; subst. destruct (neighbours_head _ _ _ _ NB) as [AF _]. destruct (dep_none b (AF T0)) as (DB&XB&RB).
              destruct (IH r ltac:(cbn in Hn; lia) S4 (neighbours_tail _ _ _ NB')) as (toks1&ops1&ops&E1&A1&SA&SI1&E2&E3).
              assert (FB : for_remote c b (hd [] r) = Did [Append b; AddDelimiter] false) by (rewrite remote_step, XB, DB; reflexivity).
              exists (t :: b :: toks1), ([Append t; AddDelimiter] ++ [Append b; AddDelimiter] ++ ops1), ops.
              rewrite (each_cons _ _ _ _ FR), (each_cons _ _ _ _ FB), E1, (each_skip _ _ _ _ _ H1), E2, (each_skip _ _ _ _ _ (H2 _)), E3. repeat split; auto.
              ** apply Forall_app. split; [apply K|]. apply Forall_app. split; [apply K|exact A1].
              ** cbn [app]. unfold said in *. cbn [flat_map txt]. rewrite SA. change (rendered (t :: b :: toks1)) with ((t ++ [space]) ++ (b ++ [space]) ++ rendered toks1). now rewrite <- !app_assoc.
        -- destruct (IH r ltac:(lia) S2 NB') as (toks1&ops1&ops&E1&A1&SA&SI1&E2&E3).
           exists (t :: toks1), ([Append t; AddDelimiter] ++ ops1), ops.
           rewrite (each_cons _ _ _ _ FR), E1, (each_cons _ _ _ _ H1), E2, (each_cons _ _ _ _ (H2 _)), E3. repeat split; auto.
           ++ apply Forall_app. split; [apply K|exact A1].
           ++ cbn [app]. unfold said in *. cbn [flat_map txt]. rewrite SA. change (rendered (t :: toks1)) with ((t ++ [space]) ++ rendered toks1). now rewrite <- app_assoc.
    + (* a dependency option *)
      destruct (dep_here t o s D) as [-> RC].
      assert (FR : for_remote c t (hd [] r) = Did [] s) by (rewrite remote_step, XP, D; reflexivity).
      assert (H1 : one_token c CP t (hd [] r) = Did [] s) by (rewrite here_step, RC; reflexivity).
      destruct s; [destruct r as [|b r]|].
      * exists [], [], []. cbn [each_token hd] in *. rewrite FR, H1. repeat split; constructor.
      * inversion S2 as [|? ? S3 S4]; subst. destruct (IH r ltac:(cbn in Hn; lia) S4 (neighbours_tail _ _ _ NB')) as (toks1&ops1&ops&E1&A1&SA&SI1&E2&E3).
        exists toks1, ops1, ops. rewrite (each_skip _ _ _ _ _ FR), E1, (each_skip _ _ _ _ _ H1), E2. repeat split; auto.
      * destruct (IH r ltac:(lia) S2 NB') as (toks1&ops1&ops&E1&A1&SA&SI1&E2&E3).
        exists toks1, ops1, ops. rewrite (each_cons _ _ _ _ FR), E1, (each_cons _ _ _ _ H1), E2. repeat split; auto.
    + destruct dep_good as [W O]. pose proof (rows_spec t dep_rows W O) as S. rewrite <- dep_act, D in S. destruct S.
  - (* -x *)
    subst t. assert (RC : rows c CP (L "-x") = Pass_) by (unfold rows; rewrite removed_here; unfold front, back; rewrite F; destruct clang, (colour c); reflexivity).
    assert (SU : substitute c (L "-x") = Pass_) by (unfold substitute, put_name; now rewrite F).
    destruct (x_language c (L "-x") (hd [] r)) as [|o s|] eqn:X.
    + assert (FR : for_remote c (L "-x") (hd [] r) = Did [Append (L "-x"); AddDelimiter] false) by (rewrite remote_step, X; reflexivity).
      assert (H1 : one_token c CP (L "-x") (hd [] r) = Did [Append (L "-x"); AddDelimiter] false) by (rewrite here_step, RC, X, SU; reflexivity).
      destruct (IH r ltac:(lia) S2 NB') as (toks1&ops1&ops&E1&A1&SA&SI1&E2&E3).
      exists (L "-x" :: toks1), ([Append (L "-x"); AddDelimiter] ++ ops1), ([Append (L "-x"); AddDelimiter] ++ ops).
      rewrite (each_cons _ _ _ _ FR), E1, (each_cons _ _ _ _ H1), E2, (each_cons _ _ _ _ (x_plain _)), E3. repeat split; auto.
      * apply Forall_app. split; [apply K|exact A1].
      * cbn [app]. unfold said in *. cbn [flat_map txt]. rewrite SA. change (rendered (L "-x" :: toks1)) with ((L "-x" ++ [space]) ++ rendered toks1). now rewrite <- app_assoc.
    + assert (SH : o = [Append (L "-x"); AddDelimiter; Append (language_kept (hd [] r)); AddDelimiter] /\ s = true /\ hd [] r <> []).
      { unfold x_language in X. destruct (upd_x c && teq (L "-x") (L "-x") && negb (teq (hd [] r) [])) eqn:G; [|discriminate]. apply andb_prop in G. destruct G as [_ G].
        injection X as <- <-. repeat split. intros Z. rewrite Z in G. discriminate. }
      destruct SH as (->&->&NE). destruct r as [|l r]; [now destruct NE|]. cbn [hd] in *.
      assert (FR : for_remote c (L "-x") l = Did [Append (L "-x"); AddDelimiter; Append (language_kept l); AddDelimiter] true) by (rewrite remote_step, X; reflexivity).
      assert (H1 : one_token c CP (L "-x") l = Did [Append (L "-x"); AddDelimiter; Append (language_kept l); AddDelimiter] true) by (rewrite here_step, RC, X; reflexivity).
      inversion S2 as [|? ? S3 S4]; subst. destruct (neighbours_head _ _ _ _ NB) as [_ AF]. destruct (AF eq_refl) as (NL&N1&N2).
      destruct (IH r ltac:(cbn in Hn; lia) S4 (neighbours_tail _ _ _ NB')) as (toks1&ops1&ops&E1&A1&SA&SI1&E2&E3).
      destruct (kept_language l (hd [] toks1) NL N1 N2 S3) as [SK OK].
      exists (L "-x" :: language_kept l :: toks1), ([Append (L "-x"); AddDelimiter; Append (language_kept l); AddDelimiter] ++ ops1), ([Append (L "-x"); AddDelimiter; Append (language_kept l); AddDelimiter] ++ ops).
      rewrite (each_skip _ _ _ _ _ FR), E1, (each_skip _ _ _ _ _ H1), E2, (each_cons _ _ _ _ (x_plain _)), (each_cons _ _ _ _ OK), E3. repeat split; auto.
      * apply Forall_app. split; [repeat (apply Forall_cons; [discriminate|]); apply Forall_nil|exact A1].
      * cbn [app]. unfold said in *. cbn [flat_map txt]. rewrite SA. change (rendered (L "-x" :: language_kept l :: toks1)) with ((L "-x" ++ [space]) ++ (language_kept l ++ [space]) ++ rendered toks1). now rewrite <- !app_assoc.
    + unfold x_language in X. destruct (_ && _) in X; discriminate.
Qed.
End Remote.

Lemma remote_same c clang options : family c = Gcc clang -> local c = true -> mapping c = [] ->
  Forall single (tokenize space options) -> neighbours (argument_follows c) (tokenize space options) ->
  exists sent line, save_remote c options = Some sent /\ remote_args (away c) sent = Some line /\ build_args c CompilePreprocessed false options = Some line.
Proof.
  intros F LO M SI NB. destruct (remote_line c clang F LO _ (tokenize space options) (le_n _) SI NB) as (toks1&ops1&ops&E1&A1&SA&SI1&E2&E3).
  exists (rendered toks1). assert (TK : tokenize space (rendered toks1) = toks1).
  { rewrite <- (app_nil_r (rendered toks1)). rewrite tokenize_rendered.
    - rewrite (filter_single toks1 SI1). change (tokenize space []) with (@nil str). apply app_nil_r.
    - eapply Forall_impl; [|exact SI1]. intros o So. now right. }
  eexists. split; [unfold save_remote; rewrite E1; cbn [option_map]; rewrite run_said by exact A1; rewrite SA; reflexivity|].
  assert (XC : extra_common (away c) = extra_common c) by (unfold extra_common, away; cbn [family colour mapping local pdb work_dir]; rewrite F, M; reflexivity).
  split; unfold remote_args, build_args, build_ops.
  - rewrite TK, E3. reflexivity.
  - rewrite E2, XC. reflexivity.
Qed.
