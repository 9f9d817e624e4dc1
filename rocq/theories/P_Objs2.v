(** Names of objects, and when an object list fails. *)
From Coq Require Import String List Arith Bool Ascii Lia.
From Verif Require Import M_Path M_Names M_Dir M_Objs S_Dir S_Objs T_Path P_Dir P_Dir3 P_Objs.
Import ListNotations.
Open Scope list_scope.

Section P.
Context (p : plat).
Lemma after_none n : ~ In (native p) n -> after_slash p n = None.
Proof.
  induction n as [|c n IH]; [reflexivity|]. intros N. cbn. rewrite IH; [|intros I; apply N; now right]. destruct (Ascii.eqb c (native p)) eqn:E; [|reflexivity].
  apply Ascii.eqb_eq in E. subst. destruct N. now left.
Qed.
Lemma after_some x n : ~ In (native p) n -> after_slash p (x ++ native p :: n) = Some n.
Proof. intros N. induction x as [|c x IH]; cbn; [now rewrite (after_none n N), Ascii.eqb_refl|now rewrite IH]. Qed.
Lemma split_file d n : (d = [] \/ exists x, d = x ++ [native p]) -> ~ In (native p) n -> file_part p (d ++ n) = n /\ dir_part p (d ++ n) = d.
Proof.
  intros D N. assert (F : file_part p (d ++ n) = n).
  { unfold file_part. destruct D as [->|(x&->)]; [cbn; now rewrite after_none|]. rewrite <- app_assoc. cbn [app]. now rewrite after_some. }
  split; [exact F|]. unfold dir_part. rewrite F, app_length. replace (List.length d + List.length n - List.length n) with (List.length d) by lia. now rewrite firstn_app, firstn_all, Nat.sub_diag, app_nil_r.
Qed.
Lemma dot_none s : ~ In "."%char s -> before_dot s = None.
Proof.
  induction s as [|c s IH]; [reflexivity|]. intros N. cbn [before_dot]. rewrite IH; [|intros I; apply N; now right]. destruct (Ascii.eqb c ".") eqn:E; [|reflexivity]. apply Ascii.eqb_eq in E. subst. destruct N. now left.
Qed.
Lemma dot_some st e : ~ In "."%char e -> before_dot (st ++ "."%char :: e) = Some st.
Proof. intros N. induction st as [|c st IH]; cbn [before_dot app]; [now rewrite (dot_none e N)|now rewrite IH]. Qed.
Lemma stem_parts k f dir st e : parts p f dir st e -> stem k (st ++ e) = if k then st ++ e else st.
Proof.
  intros (_&_&_&[(e'&->&N&NE)|(->&H)]); unfold stem; destruct k; try reflexivity.
  - rewrite dot_some by exact N. destruct st; [congruence|reflexivity].
  - rewrite app_nil_r. destruct H as [N|(x&->&N)]; [now rewrite dot_none|]. cbn [before_dot]. rewrite (dot_none x N). reflexivity.
Qed.
Lemma begins_self base r : begins_with p (base ++ r) base = true.
Proof. unfold begins_with, lower. destruct (windows p); apply starts_with_iff; [exists (map lower_char r); apply map_app|eauto]. Qed.
Lemma sub_dir base r dir st e : (exists b, base = b ++ [native p]) -> parts p r dir st e -> dir_part p (base ++ r) = base ++ dir /\ file_part p (base ++ r) = st ++ e.
Proof.
  intros (b&EB) (->&D&N&_). destruct (split_file (base ++ dir) (st ++ e)) as [F G]; [right|exact N|].
  - destruct D as [->|(d&->)]; [exists b; now rewrite app_nil_r|exists (base ++ d); now rewrite app_assoc].
  - rewrite <- app_assoc in F, G. auto.
Qed.
Lemma skip_base (base dir : str) : skipn (List.length base) (base ++ dir) = dir.
Proof. now rewrite skipn_app, skipn_all, Nat.sub_diag. Qed.
Lemma name_in_base c base r dir st e : (exists b, base = b ++ [native p]) -> parts p r dir st e ->
  obj_name p c (base ++ r) base = out_path c ++ dir ++ prefix c ++ (if keep_ext c then st ++ e else st) ++ obj_ext p c.
Proof.
  intros B P. destruct (sub_dir base r dir st e B P) as [G F]. unfold obj_name, sub_path. rewrite F, G, begins_self, skip_base, (stem_parts (keep_ext c) r dir st e P). destruct base; [destruct B as (b&B); now destruct b|reflexivity].
Qed.
Lemma name_in_root c r dir st e : (exists b, root c = b ++ [native p]) -> parts p r dir st e ->
  obj_name p c (root c ++ r) [] = out_path c ++ dir ++ prefix c ++ (if keep_ext c then st ++ e else st) ++ obj_ext p c.
Proof.
  intros B P. destruct (sub_dir (root c) r dir st e B P) as [G F]. unfold obj_name, sub_path. rewrite F, G, begins_self, skip_base, (stem_parts (keep_ext c) r dir st e P). destruct (root c); [destruct B as (b&B); now destruct b|reflexivity].
Qed.
Lemma name_flat c f dir st e : root c = [] -> parts p f dir st e -> obj_name p c f [] = out_path c ++ prefix c ++ (if keep_ext c then st ++ e else st) ++ obj_ext p c.
Proof.
  intros R P. pose proof P as (->&D&N&_). destruct (split_file dir (st ++ e) D N) as [F _]. unfold obj_name, sub_path. rewrite R, F. now rewrite (stem_parts (keep_ext c) _ dir st e P).
Qed.
(** The directory and the rest can be told apart. *)
Lemma last_slash_dec (s : str) : ~ In (native p) s \/ exists a b, s = a ++ native p :: b /\ ~ In (native p) b.
Proof.
  induction s as [|c s [N|(a&b&->&N)]]; [left; intros []| |right; exists (c :: a), b; auto]. destruct (ascii_dec c (native p)) as [->|NE]; [right; exists [], s; auto|left]. intros [E|I]; [congruence|auto].
Qed.
Lemma dirs_apart d d' n n' : (d = [] \/ exists x, d = x ++ [native p]) -> (d' = [] \/ exists x, d' = x ++ [native p]) -> ~ In (native p) n -> ~ In (native p) n' -> d ++ n = d' ++ n' -> d = d' /\ n = n'.
Proof. intros D D' N N' E. destruct (split_file d n D N) as [F G]. destruct (split_file d' n' D' N') as [F' G']. rewrite E in F, G. split; congruence. Qed.
Lemma names_apart pre d d' n n' : (d = [] \/ exists x, d = x ++ [native p]) -> (d' = [] \/ exists x, d' = x ++ [native p]) -> ~ In (native p) n -> ~ In (native p) n' -> d ++ pre ++ n = d' ++ pre ++ n' -> d = d' /\ n = n'.
Proof.
  intros D D' N N' E. destruct (last_slash_dec pre) as [NP|(a&b&->&NB)].
  - apply dirs_apart in E as [-> E]; auto; [|intros I; apply in_app_or in I as [I|I]; auto|intros I; apply in_app_or in I as [I|I]; auto]. apply app_inv_head in E. auto.
  - assert (Q : (d ++ a ++ [native p]) ++ (b ++ n) = (d' ++ a ++ [native p]) ++ (b ++ n')) by (rewrite <- !app_assoc in *; cbn [app] in *; exact E).
    apply dirs_apart in Q as [Q1 Q2]; [|right; eexists; now rewrite app_assoc|right; eexists; now rewrite app_assoc|intros I; apply in_app_or in I as [I|I]; auto|intros I; apply in_app_or in I as [I|I]; auto].
    apply app_inv_tail in Q1. apply app_inv_head in Q2. auto.
Qed.
Lemma parts_clean f dir st e : parts p f dir st e -> (dir = [] \/ exists x, dir = x ++ [native p]) /\ ~ In (native p) (st ++ e) /\ ~ In (native p) st.
Proof. intros (_&D&N&_). split; [exact D|]. split; [exact N|]. intros I. apply N, in_or_app. now left. Qed.

(** An object list that meets no conflict succeeds. *)
Section ok.
Context (c : ocfg) (g0 : list gnode) (l0 : list input).
Definition obj (i : input) : str := obj_name p c (file i) (base i).
Context (H0 : forall i, In i l0 -> how i <> FromList).
Context (H1 : forall i m, In i l0 -> In m g0 -> akin (nname m) (file i) -> nname m = file i /\ is_a_file m = true).
Context (H2 : forall i m, In i l0 -> In m g0 -> ~ akin (nname m) (obj i)).
Context (H3 : forall i j, In i l0 -> In j l0 -> ~ akin (obj i) (file j)).
Context (H4 : forall i j, In i l0 -> In j l0 -> akin (obj i) (obj j) -> file i = file j).
Context (H5 : forall i j, In i l0 -> In j l0 -> akin (file i) (file j) -> file i = file j).
Definition known (g : list gnode) : Prop := forall m, In m g -> In m g0 \/ exists j, In j l0 /\ (m = mkN (file j) KFile \/ m = mkN (obj j) (KObj (file j) (owner c))).
Lemma known_file g i m : known g -> In i l0 -> In m g -> akin (nname m) (file i) -> nname m = file i /\ is_a_file m = true.
Proof.
  intros K Ii Im A. destruct (K m Im) as [J|(j&Jj&[->| ->])]; [now apply H1|split; [now apply H5|reflexivity]|]. cbn in A. now apply H3 in A.
Qed.
Lemma known_snoc g m : known g -> (exists j, In j l0 /\ (m = mkN (file j) KFile \/ m = mkN (obj j) (KObj (file j) (owner c)))) -> known (g ++ [m]).
Proof. intros K H x I. apply in_app_or in I as [I|[<-|[]]]; auto. Qed.
Lemma ok_make g i : known g -> In i l0 -> exists g', find_or_make g (file i) = Some (g', file i) /\ known g'.
Proof.
  intros K Ii. unfold find_or_make. destruct (find_n g (file i)) as [m|] eqn:E.
  - apply find_some in E as [I A]. destruct (known_file g i m K Ii I A) as [-> ->]. eauto.
  - eexists. split; [reflexivity|]. apply known_snoc; eauto.
Qed.
Lemma ok_create g i : known g -> In i l0 -> exists g' d, create_dyn p c g (file i) (base i) = Some (g', d) /\ known g'.
Proof.
  intros K Ii. unfold create_dyn. fold (obj i). destruct (find_n g (obj i)) as [m|] eqn:E.
  - apply find_some in E as [I A]. destruct (K m I) as [J|(j&Jj&[->| ->])].
    + now apply (H2 i) in A.
    + cbn in A. apply akin_sym in A. now apply H3 in A.
    + cbn [kind nname]. cbn in A. apply H4 in A; auto. rewrite A. assert (S1 : forall x, same x x = true) by (intros x; now apply same_iff). rewrite !S1. cbn. eauto.
  - unfold create_obj. destruct (find_n g (file i)) as [m|] eqn:F.
    + apply find_some in F as [I A]. destruct (known_file g i m K Ii I A) as [-> ->]. eexists _, _. split; [reflexivity|]. apply known_snoc; eauto.
    + destruct (same_name (obj i) (file i)) eqn:S; [apply same_name_iff in S; now apply H3 in S|]. eexists _, _. split; [reflexivity|].
      intros m I. apply in_app_or in I as [I|[<-|[<-|[]]]]; eauto.
Qed.
Lemma ok_one g i : known g -> In i l0 -> exists g' ds, gather_one p c g i = Some (g', ds) /\ known g'.
Proof.
  intros K Ii. unfold gather_one. destruct (how i) eqn:HW.
  - destruct (ok_make g i K Ii) as (g1&->&K1). destruct (windows p && same (file i) (pch_cpp c)); [eauto|]. destruct (ok_create g1 i K1 Ii) as (g2&d&->&K2). eauto.
  - destruct (ok_make g i K Ii) as (g1&->&K1). destruct (ok_create g1 i K1 Ii) as (g2&d&->&K2). eauto.
  - now apply H0 in HW.
  - destruct (ok_create g i K Ii) as (g2&d&->&K2). eauto.
Qed.
Lemma ok_all l : (forall i, In i l -> In i l0) -> forall g, known g -> exists g' ds, gather_all p c g l = Some (g', ds) /\ known g'.
Proof.
  induction l as [|i l IH]; intros S g K; cbn [gather_all]; [eauto|]. destruct (ok_one g i K) as (g1&d1&->&K1); [apply S; now left|]. destruct (IH (fun j J => S j (or_intror J)) g1 K1) as (g2&d2&->&K2). eauto.
Qed.
End ok.
End P.
