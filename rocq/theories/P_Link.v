From Coq Require Import String List Arith Bool Ascii Lia.
From Verif Require Import M_Path M_Names M_Args S_Args M_Drv S_Drv P_Drv P_Drv3 M_Link S_Link.
From Verif Require T_Path.
Import ListNotations.
Open Scope list_scope.

Lemma starts_iff o t : starts_with o t = true <-> exists x, t = o ++ x. Proof. apply T_Path.starts_with_iff. Qed.
Lemma ends_iff t o : ends_with t o = true <-> exists x, t = x ++ o. Proof. apply T_Path.ends_with_iff. Qed.
Lemma lower_app a b : lower (a ++ b) = lower a ++ lower b. Proof. apply map_app. Qed.
Lemma lower_len a : List.length (lower a) = List.length a. Proof. apply map_length. Qed.
Lemma lower_cut a b c : lower a = b ++ c -> exists x y, a = x ++ y /\ lower x = b /\ lower y = c.
Proof. intros H. apply map_eq_app in H. destruct H as (x&y&->&E&F). eauto. Qed.
Lemma teq_i_iff a b : teq_i a b = true <-> lower a = lower b. Proof. apply teq_eq. Qed.
Lemma teq_i_not a b : teq_i a b = false <-> lower a <> lower b. Proof. apply teq_ne. Qed.
Lemma mem_iff x l : mem x l = true <-> In x l.
Proof.
  unfold mem. rewrite existsb_exists. split; [intros (y&I&E); apply teq_eq in E; now subst|].
  intros I. exists x. split; [exact I|apply teq_refl].
Qed.
Lemma mem_not x l : mem x l = false <-> ~ In x l.
Proof. rewrite <- mem_iff. destruct (mem x l); intuition congruence. Qed.
Lemma has_i_iff o t : o <> [] -> has_i o t = true <-> has_any_case o t.
Proof.
  intros N. unfold has_i, has_any_case. assert (lower o <> []) as N' by (destruct o; [congruence|discriminate]).
  pose proof (find_spec (lower o) N' (lower t)) as F. destruct (find (lower o) (lower t)) as [[a b]|].
  - destruct F as [F _]. split; [intros _; now exists a, b|auto].
  - split; [discriminate|contradiction].
Qed.
Lemma dash_iff t : dash t = true <-> exists d x, (d = "/"%char \/ d = "-"%char) /\ t = d :: x.
Proof.
  destruct t as [|c r]; cbn [dash]; [split; [discriminate|intros (d&x&_&E); discriminate]|].
  rewrite orb_true_iff, !Ascii.eqb_eq. split; [intros H; exists c, r; auto|]. intros (d&x&H&E). injection E as -> _. exact H.
Qed.
Lemma is_larg_iff t o : is_larg t o = true <-> option_ t o.
Proof.
  unfold is_larg, option_, ends_with_i. rewrite !andb_true_iff, dash_iff, Nat.eqb_eq, ends_iff. split.
  - intros [[(d&x&D&->) LN] (y&E)]. exists d, x. split; [exact D|]. split; [reflexivity|].
    cbn [List.length] in LN. destruct y as [|c y].
    + apply (f_equal (@List.length ascii)) in E. cbn [app lower map List.length] in E. rewrite map_length, lower_len in E. lia.
    + cbn [lower map app] in E. injection E as _ E. fold (lower x) in E. destruct y as [|c' y]; [exact E|].
      apply (f_equal (@List.length ascii)) in E. rewrite app_length, !lower_len in E. cbn [List.length] in E. lia.
  - intros (d&x&D&->&E). split; [split; [now exists d, x|]|].
    + apply (f_equal (@List.length ascii)) in E. rewrite !lower_len in E. cbn [List.length]. lia.
    + exists [lower_char d]. cbn [lower map app]. fold (lower x). now rewrite E.
Qed.
Lemma is_lstart_iff t o : is_lstart t o = true <-> exists v, option_with t o v.
Proof.
  unfold is_lstart, option_with. rewrite !andb_true_iff, dash_iff, starts_iff, negb_true_iff, Nat.ltb_ge. split.
  - intros [[(d&x&D&->) _] (y&E)]. cbn [tl] in E. apply lower_cut in E. destruct E as (a&b&->&E&_). now exists b, d, a.
  - intros (v&d&x&D&->&E). split; [split; [eauto|]|].
    + apply (f_equal (@List.length ascii)) in E. rewrite !lower_len in E. cbn [List.length]. rewrite app_length. lia.
    + exists (lower v). cbn [tl]. now rewrite lower_app, E.
Qed.
Lemma is_lstart_value t o : is_lstart t o = true -> option_with t o (skipn (1 + List.length o) t).
Proof.
  intros H. apply is_lstart_iff in H. destruct H as (v&d&x&D&->&E). exists d, x. split; [exact D|]. split; [|exact E].
  apply (f_equal (@List.length ascii)) in E. rewrite !lower_len in E. rewrite <- E. cbn [skipn Nat.add].
  rewrite skipn_app, skipn_all, Nat.sub_diag. reflexivity.
Qed.
Lemma cut_same (x x' v w : str) : x ++ v = x' ++ w -> List.length x = List.length x' -> x = x' /\ v = w.
Proof. revert x'. induction x as [|c x IH]; intros [|c' x'] F LN; try discriminate LN; [auto|]. injection F as -> F. injection LN as LN. destruct (IH x' F LN) as [-> ->]. auto. Qed.
Lemma option_value t o v w : option_with t o v -> option_with t o w -> v = w.
Proof.
  intros (d&x&_&->&E) (d'&x'&_&F&E'). injection F as _ F. apply cut_same in F; [tauto|].
  apply (f_equal (@List.length ascii)) in E, E'. rewrite !lower_len in E, E'. congruence.
Qed.
Lemma option_with_nil t o : option_with t o [] <-> option_ t o.
Proof.
  unfold option_, option_with. split; intros (d&x&D&E&F); exists d, x.
  - rewrite app_nil_r in E. auto.
  - rewrite app_nil_r. auto.
Qed.

(** ** Inputs *)
Fixpoint weight (n : inode) : nat :=
  match n with
  | OList ds | Lib _ ds => S ((fix all (l : list inode) := match l with [] => 0 | d :: r => S (weight d + all r) end) ds)
  | Copy s => S (weight s)
  | _ => 0
  end.
Fixpoint weights (l : list inode) : nat := match l with [] => 0 | d :: r => S (weight d + weights r) end.
Lemma weight_list ds : weight (OList ds) = S (weights ds). Proof. reflexivity. Qed.
Lemma weight_lib nm ds : weight (Lib nm ds) = S (weights ds). Proof. reflexivity. Qed.
Fixpoint no_copies_all (l : list inode) : Prop := match l with [] => True | d :: r => no_copies d /\ no_copies_all r end.

Lemma listed_app es : forall b es', listed_files b (es ++ es') = listed_files b es ++ listed_files (b ++ listed_files b es) es'.
Proof.
  induction es as [|[f|f] es IH]; intros b es'; cbn [app listed_files]; [now rewrite app_nil_r| |].
  - rewrite IH. rewrite <- app_assoc. reflexivity.
  - destruct (in_dec (list_eq_dec ascii_dec) f b); [apply IH|]. rewrite IH, <- app_assoc. reflexivity.
Qed.

Lemma list_inputs_spec objs : forall w,
  (forall n acc, weight n <= w -> no_copies n -> exists es, makes objs n es /\ list_inputs objs n acc = acc ++ listed_files acc es) /\
  (forall ds acc, weights ds <= w -> no_copies_all ds -> exists es, makes_all objs ds es /\ lists_inputs objs ds acc = acc ++ listed_files acc es).
Proof.
  induction w as [w IH] using lt_wf_ind. 
  assert (A : forall n acc, weight n <= w -> no_copies n -> exists es, makes objs n es /\ list_inputs objs n acc = acc ++ listed_files acc es).
  { intros n acc W C. destruct n as [nm [[[|] o]|]|ds|nm ds|nm i k|s|nm]; try (eexists; split; [constructor|reflexivity]).
    - exists [Once o]. split; [constructor|]. cbn [list_inputs listed_files]. destruct (in_dec (list_eq_dec ascii_dec) o acc) as [I|I].
      + apply mem_iff in I. rewrite I. now rewrite app_nil_r.
      + apply mem_not in I. now rewrite I.
    - exists []. split; [constructor|]. cbn. now rewrite app_nil_r.
    - rewrite weight_list in W. destruct (IH (weights ds) ltac:(lia)) as [_ H]. destruct (H ds acc ltac:(lia) C) as (es&M&E).
      exists es. split; [now constructor|exact E].
    - destruct objs eqn:Q.
      + rewrite weight_lib in W. destruct (IH (weights ds) ltac:(lia)) as [_ H]. destruct (H ds acc ltac:(lia) C) as (es&M&E).
        exists es. split; [now constructor|exact E].
      + exists [Plain_ nm]. split; [now constructor|reflexivity].
    - destruct C. }
  split; [exact A|]. intros ds acc W C. destruct ds as [|d r].
  - exists []. split; [constructor|]. cbn. now rewrite app_nil_r.
  - cbn [weights] in W. cbn [no_copies_all] in C. destruct C as [C1 C2]. destruct (A d acc ltac:(lia) C1) as (es&M&E).
    destruct (IH (weights r) ltac:(lia)) as [_ H]. destruct (H r (acc ++ listed_files acc es) ltac:(lia) C2) as (es'&M'&E').
    exists (es ++ es'). split; [now constructor|]. change (lists_inputs objs (d :: r) acc) with (lists_inputs objs r (list_inputs objs d acc)).
    now rewrite E, E', listed_app, app_assoc.
Qed.
Lemma lists_inputs_spec objs ds acc : no_copies_all ds -> exists es, makes_all objs ds es /\ lists_inputs objs ds acc = acc ++ listed_files acc es.
Proof. intros C. now apply (proj2 (list_inputs_spec objs (weights ds))). Qed.
Lemma node_inputs_spec objs n : forall acc, well_made n -> exists es, links objs n es /\ node_inputs objs n acc = acc ++ listed_files acc es.
Proof.
  induction n as [nm o|ds|nm ds|nm i k|s IH|nm]; intros acc W; cbn [node_inputs].
  - eexists. split; [constructor|reflexivity].
  - destruct (lists_inputs_spec objs ds acc W) as (es&M&E). exists es. split; [now constructor|exact E].
  - destruct objs.
    + destruct (lists_inputs_spec true ds acc W) as (es&M&E). exists es. split; [now constructor|exact E].
    + exists [Plain_ nm]. split; [now constructor|reflexivity].
  - unfold import_lib. destruct (teq i []) eqn:T; cbn [negb].
    + apply teq_eq in T. subst. destruct k; (eexists; split; [constructor|reflexivity]).
    + apply teq_ne in T. exists [Plain_ i]. split; [now constructor|reflexivity].
  - destruct (IH acc W) as (es&M&E). exists es. split; [now constructor|exact E].
  - eexists. split; [constructor|reflexivity].
Qed.
Lemma fold_inputs_spec objs ns : forall acc, Forall well_made ns -> exists ess, Forall2 (links objs) ns ess /\
  fold_left (fun acc n => node_inputs objs n acc) ns acc = acc ++ listed_files acc (List.concat ess).
Proof.
  induction ns as [|n r IH]; intros acc W; cbn [fold_left].
  - exists []. split; [constructor|]. cbn. now rewrite app_nil_r.
  - inversion_clear W. destruct (node_inputs_spec objs n acc H) as (es&M&E). rewrite E.
    destruct (IH (acc ++ listed_files acc es) H0) as (ess&M'&E'). exists (es :: ess). split; [now constructor|].
    cbn [List.concat]. now rewrite E', listed_app, app_assoc.
Qed.
Lemma inputs_spec objs ns : Forall well_made ns -> exists ess, Forall2 (links objs) ns ess /\ inputs objs ns = listed_files [] (List.concat ess).
Proof. intros W. apply (fold_inputs_spec objs ns [] W). Qed.

Lemma listed_in f es : forall b, In f (listed_files b es) -> In f (map file_of es).
Proof.
  induction es as [|[g|g] es IH]; intros b; cbn [listed_files map file_of]; [auto| |].
  - intros [->|I]; [now left|right; eauto].
  - destruct (in_dec (list_eq_dec ascii_dec) g b); intros I; [right; eauto|]. destruct I as [->|I]; [now left|right; eauto].
Qed.
Lemma listed_all f es : forall b, In f (map file_of es) -> In f b \/ In f (listed_files b es).
Proof.
  induction es as [|[g|g] es IH]; intros b; cbn [listed_files map file_of]; [auto| |].
  - intros [->|I]; [right; now left|]. destruct (IH (b ++ [g]) I) as [J|J]; [|right; now right].
    apply in_app_iff in J. destruct J as [J|[->|[]]]; [now left|right; now left].
  - destruct (in_dec (list_eq_dec ascii_dec) g b) as [J|J].
    + intros [->|I]; [now left|now apply IH].
    + intros [->|I]; [right; now left|]. destruct (IH (b ++ [g]) I) as [K|K]; [|right; now right].
      apply in_app_iff in K. destruct K as [K|[->|[]]]; [now left|right; now left].
Qed.
Lemma listed_once f es : ~ In (Plain_ f) es -> forall b, count_occ (list_eq_dec ascii_dec) (listed_files b es) f <= 1 /\
  (In f b -> count_occ (list_eq_dec ascii_dec) (listed_files b es) f = 0).
Proof.
  induction es as [|[g|g] es IH]; intros N b; cbn [listed_files]; [cbn; lia| |].
  - assert (g <> f) by (intros ->; apply N; now left). assert (N' : ~ In (Plain_ f) es) by (intros I; apply N; now right).
    destruct (IH N' (b ++ [g])) as [I1 I2]. rewrite count_occ_cons_neq by assumption. split; [exact I1|].
    intros J. apply I2. apply in_app_iff. auto.
  - assert (N' : ~ In (Plain_ f) es) by (intros I; apply N; now right).
    destruct (in_dec (list_eq_dec ascii_dec) g b) as [J|J]; [apply IH; exact N'|]. destruct (IH N' (b ++ [g])) as [I1 I2].
    destruct (list_eq_dec ascii_dec g f) as [->|D].
    + rewrite count_occ_cons_eq by reflexivity. split; [|intros; contradiction]. apply le_n_S, Nat.eq_le_incl, I2. apply in_app_iff; right; now left.
    + rewrite count_occ_cons_neq by assumption. split; [exact I1|]. intros K. apply I2. apply in_app_iff. auto.
Qed.
