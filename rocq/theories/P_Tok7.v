(** Tokenizing a document gives what it stands for. *)
From Coq Require Import String List Arith NArith ZArith Bool Ascii Lia.
From Verif Require Import M_Path M_Cond M_Tok S_Tok S_Doc P_Tok P_Tok2 P_Tok3 P_Tok4 P_Tok5 P_Tok6.
Import ListNotations.
Open Scope char_scope.
Open Scope nat_scope.

Lemma escape_literally v : escape v = literally v.
Proof.
  unfold escape, literally. induction v as [|c v IH]; [reflexivity|]. cbn [flat_map]. rewrite flat_map_app, IH. f_equal.
  destruct (Ascii.eqb_spec c "^") as [->|N]; [reflexivity|]. cbn [flat_map]. destruct (ascii_dec c "^"); [congruence|]. rewrite app_nil_r.
  destruct (Ascii.eqb_spec c "$"), (ascii_dec c "$"); congruence.
Qed.
Lemma once_lookup st f : once_known st f <-> lookup (files st) f = Some true.
Proof.
  unfold once_known. split.
  - intros (a & b & E & N). rewrite E, lookup_app. apply lookup_none in N. rewrite N. cbn [lookup]. now rewrite seqb_refl.
  - generalize (files st). clear. induction l as [|[x v] l IH]; cbn [lookup]; [discriminate|]. destruct (seqb x f) eqn:E.
    + apply seqb_eq in E. intro Q. injection Q as ->. subst x. exists [], l. split; [reflexivity|intros []].
    + intro Q. destruct (IH Q) as (a & b & -> & N). exists ((x, v) :: a), b. split; [reflexivity|]. cbn. intros [I|I]; [|tauto]. subst x. now rewrite seqb_refl in E.
Qed.
Lemma remove_first_split m a b : ~ In m a -> remove_first m (a ++ m :: b) = a ++ b.
Proof.
  induction a as [|x a IH]; intro N; cbn [remove_first app]; [now rewrite seqb_refl|]. destruct (seqb m x) eqn:E; [apply seqb_eq in E; subst; exfalso; apply N; now left|].
  f_equal. apply IH. intro; apply N; now right.
Qed.
Lemma mark_map f l : mark_once f l = map (fun x => if list_eq_dec ascii_dec (fst x) f then (f, true) else x) l.
Proof. unfold mark_once. apply map_ext. intros [k v]. cbn [fst]. unfold seqb. destruct (list_eq_dec ascii_dec k f); congruence. Qed.

Lemma yields_blanks w d fl st u s e X : blanks u -> e <= List.length s -> yields w d fl st s e X -> yields w d fl st (u ++ s) e X.
Proof.
  intros B Le Y. induction u as [|c u IH]; [exact Y|]. inversion B as [|? ? Bc Bu]; subst. cbn [app]. apply yields_space; [|rewrite app_length; lia|now apply IH].
  apply blank_iff in Bc. unfold space. tauto.
Qed.
Lemma line_blanks e u s : blanks u -> e <= List.length s -> line (List.length (u ++ s)) e (u ++ s) = line (List.length s) e s.
Proof.
  intros B Le. induction u as [|c u IH]; [reflexivity|]. inversion B as [|? ? Bc Bu]; subst. cbn [app]. rewrite line_space; [now apply IH| |rewrite app_length; lia].
  apply blank_iff in Bc. unfold space. tauto.
Qed.
(** A directive: its line is read, and then it is carried out. *)
Lemma tok_directive f w d fl st h n args x e : head_ok h -> word_name n -> says h n args -> e <= List.length x ->
  tok (S f) w d fl st ("#" :: gap h ++ n ++ rest h ++ LF :: x) e = direct (tok f w) w d fl st (TKw n :: args) x e.
Proof.
  intros H (_ & Wn) Sy Le. pose proof H as (Bi & Bg & Nn & Nl). apply blank_text_blanks in Bi. apply blank_text_blanks in Bg.
  assert (Nw : ~ In LF n). { intro I. rewrite Forall_forall in Wn. specialize (Wn _ I). apply lower_iff in Wn. discriminate. }
  cbn [tok]. unfold tok_body.
  destruct (Nat.leb_spec (List.length ("#" :: gap h ++ n ++ rest h ++ LF :: x)) e) as [Q|_]; [cbn in Q; rewrite !app_length in Q; cbn in Q; lia|].
  rewrite lex_hash. assert (Nx2 : next_line e (gap h ++ n ++ rest h ++ LF :: x) = x).
  { replace (gap h ++ n ++ rest h ++ LF :: x) with ((gap h ++ n ++ rest h) ++ LF :: x) by now rewrite <- !app_assoc. apply next_line_lf; [|exact Le].
    rewrite !in_app_iff. pose proof (blanks_no_lf _ Bg). tauto. }
  cbv zeta. rewrite Nx2. rewrite line_blanks; [|exact Bg|rewrite !app_length; cbn; lia].
  replace (n ++ rest h ++ LF :: x) with ((n ++ rest h ++ [LF]) ++ x) by (rewrite <- !app_assoc; reflexivity).
  rewrite (means_line _ _ x Sy); [reflexivity|]. right. exists (n ++ rest h). now rewrite app_assoc.
Qed.
Lemma yields_directive w d fl st h n args x e X : head_ok h -> word_name n -> says h n args -> e <= List.length x -> X <> NoFuel ->
  (exists f, direct (tok f w) w d fl st (TKw n :: args) x e = X) -> yields w d fl st (line_of h n ++ x) e X.
Proof.
  intros H Wn Sy Le Nx (f & D). rewrite line_text. pose proof H as (Bi & _). apply blank_text_blanks in Bi.
  apply yields_blanks; [exact Bi|cbn; rewrite !app_length; cbn; lia|]. split; [exact Nx|]. exists (S f). now rewrite (tok_directive _ _ _ _ _ _ _ args).
Qed.
Lemma yields_directive_inv w d fl st h n args x e X : head_ok h -> word_name n -> says h n args -> e <= List.length x ->
  yields w d fl st (line_of h n ++ x) e X -> exists f, direct (tok f w) w d fl st (TKw n :: args) x e = X.
Proof.
  intros H Wn Sy Le Y. assert (Y2 : yields w d fl st ("#" :: gap h ++ n ++ rest h ++ LF :: x) e X).
  { rewrite line_text in Y. pose proof H as (Bi & _). apply blank_text_blanks in Bi. destruct (indent h) as [|c u]; [exact Y|].
    apply yields_white in Y. assert (E : skip_white ((c :: u) ++ "#" :: gap h ++ n ++ rest h ++ LF :: x) = "#" :: gap h ++ n ++ rest h ++ LF :: x).
    { unfold skip_white. rewrite span_app; [reflexivity| |reflexivity]. eapply Forall_impl; [|exact Bi]. intros a Ha. apply blank_iff in Ha as [->| ->]; reflexivity. }
    now rewrite E in Y. }
  destruct Y2 as (Nx & f & Hf). destruct f as [|f]; [cbn in Hf; congruence|]. exists f. now rewrite <- (tok_directive f w d fl st h n args x e H Wn Sy Le).
Qed.
Lemma command_word n : command_name n -> word_name n. Proof. intros (A & B & _). now split. Qed.
Lemma emit_some ts X : X <> NoFuel -> emit ts X <> NoFuel. Proof. intro. now apply emit_fuel. Qed.

(** * The theorem *)
Section Runs.
Variable w : world.
Hypothesis Hw : sound_world w.

Definition gives (d : nat) (f : str) (st : state) (k : doc) (ts : list token) (st' : state) : Prop :=
  forall x e X, e <= List.length x -> yields w d f st' x e X -> yields w d f st (text k ++ x) e (emit ts X).
Lemma block_yields d f st b ts st' y z be : gives d f st b ts st' -> blanks y -> hd " " z = "#" -> be = List.length z ->
  yields w d f st (text b ++ y ++ z) be (Done (ts, st')).
Proof.
  intros G B Hz ->. assert (Y : yields w d f st (text b ++ y ++ z) (List.length z) (emit ts (Done ([], st')))).
  { apply G; [rewrite app_length; lia|]. apply yields_blanks; [exact B|lia|]. now apply yields_end. }
  cbn [emit bind fst snd] in Y. now rewrite app_nil_r in Y.
Qed.
Lemma with_same st : with_files (files st) st = st. Proof. destruct st; reflexivity. Qed.

Theorem runs_yields d f st k ts st' : runs w d f st k ts st' -> shaped k -> In "/" f -> agrees w st -> agrees w st' /\ gives d f st k ts st'.
Proof.
  induction 1 as [d f st|d f st s k ts1 ts2 st' M R IH|d f st h m k ts st' Sy N1 N2 R IH|d f st h m a b k ts st' Sy Em Nm R IH|d f st h k ts st' Sy R IH|d f st h v x k ts st' Sy Ev R IH
    |d f st h p k ts st' Sy Ld Kn R IH|d f st h p b k ts1 st1 ts2 st2 Sy Ld Kn Ct Sb R1 IH1 R2 IH2
    |d f st h c b t k ts1 st1 ts2 st2 Sy Ok Ct As R1 IH1 R2 IH2|d f st h c b t k st0 b' ts1 st1 ts2 st2 Sy Ok Ct Pk R1 IH1 R2 IH2|d f st h c b t k st0 ts2 st2 Sy Ok Ct Pk R2 IH2]; intros Sh Hf A.
  - split; [exact A|]. intros x e X Le Y. rewrite emit_nil. exact Y.
  - destruct Sh as (P & Sk). destruct (IH Sk Hf A) as (A' & G). split; [exact A'|]. intros x e X Le Y. cbn [text]. rewrite <- app_assoc, <- emit_emit.
    apply means_yields with (r := []); [exact M|right; left; exact (proj1 P)|cbn; rewrite app_length; lia|]. cbn [app]. now apply G.
  - destruct Sh as (H & Cn & Sk). destruct (IH Sk Hf A) as (A' & G). split; [exact A'|]. intros x e X Le Y. cbn [text]. rewrite <- app_assoc.
    destruct (G x e X Le Y) as (Nx & g & Hg). apply yields_directive with (args := [TId m]); auto using command_word; [rewrite app_length; lia|]. exists g. cbn [direct]. names.
    unfold defined. destruct (among (macros st) m) eqn:Q; [apply among_in in Q; tauto|]. destruct (among (predef w) m) eqn:Q2; [apply among_in in Q2; tauto|]. exact Hg.
  - destruct Sh as (H & Cn & Sk). destruct (IH Sk Hf A) as (A' & G). split; [exact A'|]. intros x e X Le Y. cbn [text]. rewrite <- app_assoc.
    destruct (G x e X Le Y) as (Nx & g & Hg). apply yields_directive with (args := [TId m]); auto using command_word; [rewrite app_length; lia|]. exists g. cbn [direct]. names.
    assert (Q : among (macros st) m = true) by (apply among_in; rewrite Em; apply in_or_app; right; now left). rewrite Q. cbn [none_left]. rewrite Em, remove_first_split by exact Nm. exact Hg.
  - destruct Sh as (H & Cn & Sk). destruct (IH Sk Hf A) as (A' & G). split; [exact A'|]. intros x e X Le Y. cbn [text]. rewrite <- app_assoc.
    destruct (G x e X Le Y) as (Nx & g & Hg). apply yields_directive with (args := []); auto using command_word; [rewrite app_length; lia|]. exists g. cbn [direct]. names.
    cbn [none_left]. rewrite mark_map. exact Hg.
  - destruct Sh as (H & Cn & Sk). assert (A0 : agrees w (with_imported (record v (h32 w x) (imported st)) st)).
    { destruct A as (A1 & A2). split; [|exact A2]. cbn [imported with_imported]. replace (h32 w x) with (hash_of w (env w v)) by now rewrite Ev. apply (record_agrees (fun v => hash_of w (env w v))); exact A1. }
    destruct (IH Sk Hf A0) as (A' & G). split; [exact A'|]. intros y e X Le Y. cbn [text]. rewrite <- app_assoc.
    destruct (G y e X Le Y) as (Nx & g & Hg). apply yields_directive with (args := [TId v]); auto using command_word; [rewrite app_length; lia|now apply emit_some; apply emit_fuel in Nx|].
    exists g. cbn [direct]. names. rewrite (import_record w st v false A) by (right; congruence). rewrite Ev. cbn [hash_of none_left]. rewrite escape_literally.
    change (TVar ("." :: v) :: TOp OAssign :: TStr (literally x) :: ts) with ([TVar ("." :: v); TOp OAssign; TStr (literally x)] ++ ts). rewrite <- emit_emit. f_equal. exact Hg.
  - destruct Sh as (H & Cn & Sk). destruct (IH Sk Hf A) as (A' & G). split; [exact A'|]. intros x e X Le Y. cbn [text]. rewrite <- app_assoc.
    destruct (G x e X Le Y) as (Nx & g & Hg). apply yields_directive with (args := [TStr p]); auto using command_word; [rewrite app_length; lia|]. exists g. cbn [direct]. names.
    destruct (Nat.leb_spec 128 (S d)); [lia|]. unfold open_file. rewrite (expand_beside _ _ Hf). apply once_lookup in Kn. rewrite Kn. cbn [bind fst snd none_left]. rewrite emit_nil. exact Hg.
  - destruct Sh as (H & Cn & Sk). set (fi := clean w (beside f p)) in *.
    assert (A0 : agrees w (with_files (record fi false (files st)) st)) by exact A.
    destruct (IH1 Sb (proj1 Hw _) A0) as (A1 & G1). destruct (IH2 Sk Hf A1) as (A2 & G2). split; [exact A2|]. intros x e X Le Y. cbn [text]. rewrite <- app_assoc, <- emit_emit.
    destruct (G2 x e X Le Y) as (Nx & g & Hg). specialize (G1 [] 0 (Done ([], st1)) ltac:(cbn; lia) (yields_end w (S d) fi st1 [] 0 (le_n 0))). cbn [emit bind fst snd] in G1. rewrite !app_nil_r in G1.
    destruct G1 as (_ & g1 & Hg1).
    apply yields_directive with (args := [TStr p]); auto using command_word; [rewrite app_length; lia|now apply emit_some|]. exists (Nat.max g g1). cbn [direct]. names.
    destruct (Nat.leb_spec 128 (S d)); [lia|]. unfold open_file. rewrite (expand_beside _ _ Hf). fold fi.
    assert (T1 : tok (Nat.max g g1) w (S d) fi (with_files (record fi false (files st)) st) (text b) 0 = Done (ts1, st1)) by (eapply tok_more; [exact Hg1|discriminate|lia]).
    assert (T2 : tok (Nat.max g g1) w d f st1 (text k ++ x) e = emit ts2 X) by (eapply tok_more; [exact Hg|exact Nx|lia]).
    destruct (lookup (files st) fi) as [[]|] eqn:Lk.
    + exfalso. apply Kn. now apply once_lookup.
    + rewrite Ct. rewrite (record_some _ _ _ _ Lk), with_same in T1. rewrite T1. cbn [bind fst snd none_left]. now rewrite T2.
    + rewrite Ct. rewrite (record_none _ _ _ Lk) in T1. change (set_files (files st ++ [(fi, false)]) st) with (with_files (files st ++ [(fi, false)]) st). rewrite T1. cbn [bind fst snd none_left]. now rewrite T2.
  - destruct Sh as (H & Sb & St & Sk). destruct (IH1 Sb Hf (note_all_agrees _ _ _ _ A)) as (A1 & G1). destruct (IH2 Sk Hf A1) as (A2 & G2). split; [exact A2|]. intros x e X Le Y.
    destruct (G2 x e X Le Y) as (Nx & g & Hg). cbn [text]. rewrite <- !app_assoc, <- emit_emit.
    apply yields_directive with (args := cond_tokens c); auto using w_if; [rewrite !app_length; lia|now apply emit_some|].
    destruct (find_part b t (text k ++ x) e Sb St ltac:(rewrite app_length; lia)) as (be & Mk & Fp).
    destruct (marks_block b t (text k ++ x) be St Mk) as (y & z & Ez & By & Hz & Eb).
    pose proof (block_yields d f (note_cond w f st c) b ts1 st1 y z be G1 By Hz Eb) as (_ & g1 & Hg1). rewrite <- Ez in Hg1.
    exists (Nat.max g g1). cbn [direct]. names.
    destruct (if_expr_value w f Hw Hf true st c A Ok) as (v & Ev & Vt). rewrite Ev. cbn [bind]. assert (v = true) by (apply Vt; auto). subst v.
    rewrite Fp. cbn [bind]. rewrite (branches_after w f Hw Hf t St) by first [exact As | exact (note_all_agrees _ _ _ _ A) | rewrite app_length; lia | lia]. cbn [bind].
    rewrite (tok_more g1 (Nat.max g g1) _ _ _ _ _ _ _ Hg1) by (discriminate || lia). cbn [bind none_left fst snd].
    rewrite (tok_more g (Nat.max g g1) _ _ _ _ _ _ _ Hg) by (assumption || lia). reflexivity.
  - destruct Sh as (H & Sb & St & Sk). assert (A0 : agrees w (note_cond w f st c)) by (now apply note_all_agrees).
    pose proof (picks_agrees w f _ _ _ _ Pk A0) as A00. destruct (IH1 (picks_shaped _ _ _ _ _ _ Pk St) Hf A00) as (A1 & G1). destruct (IH2 Sk Hf A1) as (A2 & G2). split; [exact A2|]. intros x e X Le Y.
    destruct (G2 x e X Le Y) as (Nx & g & Hg). cbn [text]. rewrite <- !app_assoc, <- emit_emit.
    apply yields_directive with (args := cond_tokens c); auto using w_if; [rewrite !app_length; lia|now apply emit_some|].
    destruct (find_part b t (text k ++ x) e Sb St ltac:(rewrite app_length; lia)) as (be & Mk & Fp).
    destruct (branches_picks w f Hw Hf t St (S (List.length (tail_rest t (text k ++ x)))) (text k ++ x) e _ _ _ A0 ltac:(rewrite app_length; lia) Pk ltac:(lia)) as (block & Eb & Ib).
    destruct block as [[s be']|]; [|destruct Ib]. destruct Ib as (y & z & -> & By & Hz & Ebe).
    pose proof (block_yields d f st0 b' ts1 st1 y z be' G1 By Hz Ebe) as (_ & g1 & Hg1).
    exists (Nat.max g g1). cbn [direct]. names.
    destruct (if_expr_value w f Hw Hf true st c A Ok) as (v & Ev & Vt). rewrite Ev. cbn [bind]. assert (v = false) by (apply not_true; intro Q; apply Vt in Q; tauto). subst v.
    rewrite Fp. cbn [bind]. rewrite Eb. cbn [bind].
    rewrite (tok_more g1 (Nat.max g g1) _ _ _ _ _ _ _ Hg1) by (discriminate || lia). cbn [bind none_left fst snd].
    rewrite (tok_more g (Nat.max g g1) _ _ _ _ _ _ _ Hg) by (assumption || lia). reflexivity.
  - destruct Sh as (H & Sb & St & Sk). assert (A0 : agrees w (note_cond w f st c)) by (now apply note_all_agrees).
    pose proof (picks_agrees w f _ _ _ _ Pk A0) as A00. destruct (IH2 Sk Hf A00) as (A2 & G2). split; [exact A2|]. intros x e X Le Y.
    destruct (G2 x e X Le Y) as (Nx & g & Hg). cbn [text]. rewrite <- !app_assoc.
    apply yields_directive with (args := cond_tokens c); auto using w_if; [rewrite !app_length; lia|].
    destruct (find_part b t (text k ++ x) e Sb St ltac:(rewrite app_length; lia)) as (be & Mk & Fp).
    destruct (branches_picks w f Hw Hf t St (S (List.length (tail_rest t (text k ++ x)))) (text k ++ x) e _ _ _ A0 ltac:(rewrite app_length; lia) Pk ltac:(lia)) as (block & Eb & Ib).
    destruct block as [[s be']|]; [destruct Ib|].
    exists g. cbn [direct]. names.
    destruct (if_expr_value w f Hw Hf true st c A Ok) as (v & Ev & Vt). rewrite Ev. cbn [bind]. assert (v = false) by (apply not_true; intro Q; apply Vt in Q; tauto). subst v.
    rewrite Fp. cbn [bind]. rewrite Eb. cbn [bind none_left fst snd]. rewrite Hg. now rewrite emit_nil.
Qed.
End Runs.
