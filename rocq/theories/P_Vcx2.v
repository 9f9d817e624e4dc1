(** Proofs about the files of a project for Visual Studio, where they are shown, and its text. *)
From Coq Require Import String Ascii List Arith Bool NArith Lia Permutation Sorted.
From Verif Require Import M_Path M_Names M_Sort M_Dir M_Drv M_Xcode M_Vcx S_Vcx S_Sort S_Dir S_Xcode P_Sort P_Dir2 P_Xcode P_Drv P_Vcx T_Path.
Import ListNotations.
Local Open Scope list_scope.

Definition key (x : pair) : str := lower (shown x).
Lemma pair_weak : strict_weak pair_less.
Proof. destruct less_weak as [A B C]. split; unfold pair_less; [intros x; apply A|intros x y z; apply B|intros x y z; apply C]. Qed.

Lemma uniques_ok l : forall prev, S_Sort.ordered pair_less (prev :: l) ->
  StronglySorted (fun a b => before (key a) (key b)) (prev :: uniques prev l) /\ (forall x, In x (uniques prev l) -> In x l) /\
  (forall x, In x l -> exists y, In y (prev :: uniques prev l) /\ key y = key x).
Proof.
  induction l as [|x l IH]; intros prev O.
  - cbn. split; [repeat constructor|]. split; [easy|intros ? []].
  - destruct (ordered_tail _ _ _ O) as (O1&O2). cbn [uniques]. destruct (teq (lower (shown x)) (lower (shown prev))) eqn:T.
    + apply teq_eq in T. assert (O' : S_Sort.ordered pair_less (prev :: l)).
      { intros [|i] [|j] a b LT Ea Eb; [lia| |lia|].
        - cbn in Ea. injection Ea as <-. apply (O 0 (S (S j))); [lia|reflexivity|exact Eb].
        - apply (O (S (S i)) (S (S j))); [lia|exact Ea|exact Eb]. }
      destruct (IH prev O') as (A&B&C). split; [exact A|]. split; [intros y I; right; now apply B|].
      intros y [<-|I]; [exists prev; split; [now left|unfold key; congruence]|now apply C].
    + apply teq_ne in T. destruct (IH x O1) as (A&B&C).
      assert (LT : before (key prev) (key x)).
      { specialize (O2 x (or_introl eq_refl)). destruct (before_total (key prev) (key x)) as [Q|[Q|Q]]; [exact Q|unfold key in Q; congruence|].
        apply less_before in Q. unfold pair_less in O2. unfold key in Q. congruence. }
      split; [|split].
      * constructor; [exact A|]. inversion A as [|? ? A1 A2]; subst. constructor; [exact LT|]. eapply Forall_impl; [|exact A2]. intros y Q. cbn beta in Q. eapply before_trans; eauto.
      * intros y [<-|I]; [now left|right; now apply B].
      * intros y [<-|I]; [exists x; split; [right; now left|easy]|]. destruct (C y I) as (z&Z1&Z2). exists z. split; [now right|exact Z2].
Qed.

Section F.
Context (p : plat) (rel : str -> str).
Lemma files_ok adds : exists u, project_files p rel adds = Some u /\ StronglySorted (fun a b => before (key a) (key b)) u /\
  (forall x, In x u -> exists f, In f adds /\ x = pair_of p rel f) /\ (forall f, In f adds -> exists x, In x u /\ key x = key (pair_of p rel f)).
Proof.
  destruct adds as [|f0 fs]; [exists []; split; [easy|]; split; [constructor|]; split; [intros ? []|intros ? []]|]. set (adds := f0 :: fs).
  unfold project_files. change (match adds with [] => Some [] | _ :: _ => match shell_sort pair_less (map (pair_of p rel) adds) with None => None | Some [] => None | Some (x :: r) => Some (x :: uniques x r) end end)
    with (match shell_sort pair_less (map (pair_of p rel) adds) with None => None | Some [] => None | Some (x :: r) => Some (x :: uniques x r) end).
  destruct (shell_sort_spec pair_less (map (pair_of p rel) adds)) as (b&E&PM&O). rewrite E. specialize (O pair_weak).
  destruct b as [|x r]; [apply Permutation_sym, Permutation_nil in PM; discriminate|]. destruct (uniques_ok r x O) as (A&B&C).
  exists (x :: uniques x r). split; [easy|]. split; [exact A|]. split.
  - intros y I. assert (J : In y (x :: r)) by (destruct I as [<-|I]; [now left|right; now apply B]).
    apply (Permutation_in _ (Permutation_sym PM)), in_map_iff in J. destruct J as (f&<-&J). now exists f.
  - intros f I. apply (in_map (pair_of p rel)), (Permutation_in _ PM) in I. destruct I as [E1|I]; [exists x; split; [now left|now rewrite E1]|now apply C].
Qed.
Lemma name_is f : shown (pair_of p rel f) = name p rel f.
Proof. reflexivity. Qed.
End F.

(** *** Where a file is shown *)
Lemma lower_length s : length (lower s) = length s.
Proof. apply map_length. Qed.
Lemma lower_app a b : lower (a ++ b) = lower a ++ lower b.
Proof. apply map_app. Qed.
Lemma firstn_lower n s : firstn n (lower s) = lower (firstn n s).
Proof. apply firstn_map. Qed.
Lemma begins_iff b f : starts_with (lower b) (lower f) = true <-> exists h r, f = h ++ r /\ lower h = lower b.
Proof.
  rewrite starts_with_iff. split.
  - intros (x&E). exists (firstn (length b) f), (skipn (length b) f). split; [symmetry; apply firstn_skipn|].
    rewrite <- firstn_lower, E. rewrite <- (lower_length b). now rewrite firstn_app, Nat.sub_diag, firstn_all, app_nil_r.
  - intros (h&r&->&E). exists (lower r). now rewrite lower_app, E.
Qed.
Lemma below_compute b f d i : last_at back f = Some i -> below b f d <->
  starts_with (lower b) (lower f) = true /\ length b < i /\ d = firstn (i - length b) (skipn (length b) f).
Proof.
  intros E. destruct (last_some _ _ _ E) as (F&N&LI). rewrite begins_iff. split.
  - intros (h&n&->&LH&ND&NI). assert (LL : length h = length b) by (rewrite <- (lower_length h), LH; apply lower_length).
    rewrite (app_assoc (h : list ascii)) in E. change "\"%char with back in E. rewrite last_at_app in E by exact NI. injection E as <-. rewrite app_length. split; [now exists h, (d ++ back :: n)|].
    split; [destruct d; [congruence|cbn; lia]|]. rewrite <- LL. rewrite skipn_app, Nat.sub_diag, skipn_all. cbn [List.app skipn].
    replace (length h + length d - length h) with (length d) by lia. now rewrite firstn_app, Nat.sub_diag, firstn_all, app_nil_r.
  - intros ((h&r&FH&LH)&LB&->). assert (LL : length h = length b) by (rewrite <- (lower_length h), LH; apply lower_length).
    exists h, (skipn (S i) f). split; [|split; [exact LH|split; [|exact N]]].
    + assert (SK : skipn (length b) f = r) by (rewrite FH, <- LL, skipn_app, Nat.sub_diag, skipn_all; reflexivity). rewrite SK.
      assert (FI : firstn i f = h ++ firstn (i - length b) r) by (rewrite FH, firstn_app, firstn_all2 by lia; now rewrite LL).
      etransitivity; [exact F|]. rewrite FI. now rewrite <- app_assoc.
    + intros Q. apply (f_equal (@length _)) in Q. rewrite firstn_length, skipn_length in Q. cbn in Q. lia.
Qed.
Lemma placed_ok bases f : In back f -> placed bases f (match folder_path bases f with [] => None | d => Some d end).
Proof.
  intros IB. destruct (last_at back f) as [i|] eqn:E; [|now apply last_none in E]. induction bases as [|b r IH]; [intros b d []|]. cbn [folder_path]. rewrite E.
  destruct (starts_with (lower b) (lower f)) eqn:ST; [destruct (Nat.ltb_spec (length b) i) as [LB|LB]|].
  - set (d := firstn (i - length b) (skipn (length b) f)) in *. assert (BD : below b f d) by (apply (below_compute _ _ _ _ E); auto).
    destruct d as [|c d'] eqn:ED; [destruct BD as (?&?&_&_&Q&_); congruence|]. exists [], b, r. split; [easy|]. split; [exact BD|intros ? ? []].
  - assert (NB : forall d, ~ below b f d) by (intros d Q; apply (below_compute _ _ _ _ E) in Q; lia).
    destruct (folder_path r f) as [|c d]; [intros b' d' [<-|I]; [apply NB|now apply IH]|]. destruct IH as (l&b'&r'&->&Q1&Q2). exists (b :: l), b', r'.
    split; [easy|]. split; [exact Q1|]. intros b2 d2 [<-|I]; [apply NB|now apply Q2].
  - assert (NB : forall d, ~ below b f d) by (intros d Q; apply (below_compute _ _ _ _ E) in Q; destruct Q as (Q&_); congruence).
    destruct (folder_path r f) as [|c d]; [intros b' d' [<-|I]; [apply NB|now apply IH]|]. destruct IH as (l&b'&r'&->&Q1&Q2). exists (b :: l), b', r'.
    split; [easy|]. split; [exact Q1|]. intros b2 d2 [<-|I]; [apply NB|now apply Q2].
Qed.

(** *** The declared folders, whatever the hash *)
Section H.
Context (hash : str -> N).
Definition sound (st : list str * list N) : Prop := snd st = map hash (fst st) /\ NoDup (snd st).
Lemma add_folder_sound k : forall f st, length f < k -> sound st -> exists st', add_folder hash k f st = Some st' /\ sound st'.
Proof.
  induction k as [|k IH]; intros f st LK (S1&S2); [lia|]. cbn [add_folder]. destruct (existsb (N.eqb (hash f)) (snd st)) eqn:X; [exists st; now split|].
  assert (NI : ~ In (hash f) (snd st)).
  { intros I. assert (Y : existsb (N.eqb (hash f)) (snd st) = true) by (apply existsb_exists; exists (hash f); split; [exact I|apply N.eqb_refl]). congruence. }
  assert (W : sound (fst st ++ [f], snd st ++ [hash f])).
  { split; cbn [fst snd]; [now rewrite map_app, S1|]. apply (Permutation_NoDup (l := hash f :: snd st)); [apply Permutation_cons_append|now constructor]. }
  destruct (last_at back f) as [i|] eqn:E; [|eexists; split; [reflexivity|exact W]]. destruct (up_within _ _ E) as (_&U). apply IH; [lia|exact W].
Qed.
Lemma add_all_sound bases l : forall prev st, sound st -> exists st', add_all hash bases l prev st = Some st' /\ sound st'.
Proof.
  induction l as [|x l IH]; intros prev st SO; [now exists st|]. cbn [add_all]. set (f := folder_path bases (absolute x)).
  destruct (negb (teq f []) && negb (teq f prev)); [|now apply IH]. destruct (add_folder_sound (S (length f)) f st) as (st1&E&S1); [lia|exact SO|]. rewrite E. now apply IH.
Qed.
End H.
Lemma combine_parts {A B} (l : list A) (f : A -> B) : map fst (combine l (map f l)) = l /\ map snd (combine l (map f l)) = map f l.
Proof. induction l as [|x l (I1&I2)]; cbn; [easy|]. now rewrite I1, I2. Qed.

(** *** More names than hashes *)
Lemma twice (g : nat -> N) n : NoDup (map g (seq 0 n)) \/ exists i j, i < j /\ g i = g j.
Proof.
  induction n as [|n [IH|IH]]; [left; constructor| |now right]. rewrite seq_S, map_app. cbn [map plus].
  destruct (in_dec N.eq_dec (g n) (map g (seq 0 n))) as [I|I].
  - right. apply in_map_iff in I. destruct I as (i&E&I). apply in_seq in I. exists i, n. split; [lia|exact E].
  - left. apply (Permutation_NoDup (l := g n :: map g (seq 0 n))); [apply Permutation_cons_append|now constructor].
Qed.
Lemma pigeon (g : nat -> N) B : (forall i, (g i < B)%N) -> exists i j, i < j /\ g i = g j.
Proof.
  intros H. set (l := seq 0 (S (N.to_nat B))).
  assert (ND : ~ NoDup (map g l)).
  { intros Q. assert (IL : incl (map g l) (map N.of_nat (seq 0 (N.to_nat B)))).
    { intros y I. apply in_map_iff in I. destruct I as (i&<-&_). specialize (H i). apply in_map_iff. exists (N.to_nat (g i)). split; [lia|]. apply in_seq. lia. }
    pose proof (NoDup_incl_length Q IL) as LE. unfold l in LE. rewrite !map_length, !seq_length in LE. lia. }
  destruct (twice g (S (N.to_nat B))) as [Q|Q]; [now apply ND in Q|exact Q].
Qed.

(** *** The text *)
Lemma text_all v rest : exists k, forall k', k <= k' -> text k' (flat_map pg_char v ++ "<"%char :: rest) = Some (v, "<"%char :: rest).
Proof.
  induction v as [|c v (k&IH)]; [exists 1; intros [|k'] H; [lia|reflexivity]|]. exists (S k). intros [|k'] H; [lia|]. specialize (IH k' ltac:(lia)).
  cbn [flat_map]. rewrite <- app_assoc. unfold pg_char at 1.
  destruct (Ascii.eqb_spec c ">") as [->|N1]; [match goal with |- ?l = _ => change l with (match text k' (flat_map pg_char v ++ "<"%char :: rest) with Some (w, u) => Some (">"%char :: w, u) | None => None end) end; now rewrite IH|].
  destruct (Ascii.eqb_spec c "<") as [->|N2]; [match goal with |- ?l = _ => change l with (match text k' (flat_map pg_char v ++ "<"%char :: rest) with Some (w, u) => Some ("<"%char :: w, u) | None => None end) end; now rewrite IH|].
  destruct (Ascii.eqb_spec c "&") as [->|N3]; [match goal with |- ?l = _ => change l with (match text k' (flat_map pg_char v ++ "<"%char :: rest) with Some (w, u) => Some ("&"%char :: w, u) | None => None end) end; now rewrite IH|].
  cbn [List.app text]. rewrite (proj2 (Ascii.eqb_neq _ _) N2), (proj2 (Ascii.eqb_neq _ _) N3). now rewrite IH.
Qed.
Lemma attribute_plain s rest : (forall c, In c s -> 32 <= nat_of_ascii c /\ c <> "&"%char /\ c <> "<"%char /\ c <> ascii_of_nat 34) ->
  exists k, forall k', k <= k' -> attribute k' (s ++ ascii_of_nat 34 :: rest) = Some (s, rest).
Proof.
  intros H. induction s as [|c s IH]; [exists 1; intros [|k'] LK; [lia|reflexivity]|]. destruct IH as (k&IH); [intros d I; apply H; now right|]. exists (S k). intros [|k'] LK; [lia|].
  destruct (H c (or_introl eq_refl)) as (C1&C2&C3&C4). cbn [List.app attribute]. rewrite (proj2 (Ascii.eqb_neq _ _) C2), (proj2 (Ascii.eqb_neq _ _) C3), (proj2 (Ascii.eqb_neq _ _) C4).
  destruct (Nat.ltb_spec (nat_of_ascii c) 32); [lia|]. rewrite IH by lia. reflexivity.
Qed.
