(** Proofs about stamps of directory listings and about RemoveDir. *)
From Coq Require Import String List Arith Bool Ascii NArith Lia Permutation Sorted.
From Verif Require Import M_Path M_Names M_Glob M_Sort M_Cond M_Dir S_Fix S_Dir S_Sort T_Path P_Dir P_Dir2.
Import ListNotations.
Open Scope list_scope.

(** *** Texts that begin with the same path can be taken apart *)
Lemma app_split {A} (a b c d : list A) : a ++ b = c ++ d -> List.length a <= List.length c -> exists e, c = a ++ e /\ b = e ++ d.
Proof.
  revert c. induction a as [|x a IH]; intros c E LE; [exists c; auto|]. destruct c as [|y c]; [cbn in LE; lia|]. injection E as <- E. cbn in LE.
  destruct (IH c E ltac:(lia)) as (e&->&->). exists e. auto.
Qed.
Definition item (path s : str) : Prop := exists r, s = path ++ r /\ clear_of path r.
Lemma clear_cut path x y s t : path <> [] -> clear_of path x -> clear_of path y -> x ++ path ++ s = y ++ path ++ t -> x = y.
Proof.
  intros NP Cx Cy E.
  assert (W : forall x y s t, clear_of path y -> x ++ path ++ s = y ++ path ++ t -> List.length x <= List.length y -> x = y).
  { clear - NP. intros x y s t Cy E LE. rewrite !app_assoc in E. destruct (app_split (x ++ path) s (y ++ path) t E) as (e&E1&_); [rewrite !app_length; lia|].
    rewrite <- app_assoc in E1. pose proof (Cy _ _ E1) as ->. rewrite app_nil_r in E1. now apply app_inv_tail in E1. }
  destruct (Nat.le_gt_cases (List.length x) (List.length y)) as [LE|LE]; [now apply (W x y s t)|]. symmetry. apply (W y x t s); auto. lia.
Qed.
Lemma items_inj path : path <> [] -> forall l l', Forall (item path) l -> Forall (item path) l' -> concat l = concat l' -> l = l'.
Proof.
  intros NP. assert (NE : forall s l, Forall (item path) (s :: l) -> concat (s :: l) <> []).
  { intros s l F E. inversion F as [|? ? (r&->&_) _]; subst. cbn in E. rewrite <- app_assoc in E. apply app_eq_nil in E as [E _]. contradiction. }
  induction l as [|a l IH]; intros [|b l'] F F' E; [reflexivity|symmetry in E; destruct (NE _ _ F' E)|destruct (NE _ _ F E)|].
  inversion F as [|? ? (r&->&C) Fl]; subst. inversion F' as [|? ? (r'&->&C') Fl']; subst. cbn [concat] in E. rewrite <- !app_assoc in E. apply app_inv_head in E.
  assert (K : forall m, Forall (item path) m -> m = [] \/ exists u, concat m = path ++ u).
  { intros [|x m] Fm; [now left|right]. inversion Fm as [|? ? (z&->&_) _]; subst. exists (z ++ concat m). cbn. now rewrite <- app_assoc. }
  assert (R : r = r').
  { destruct (K l Fl) as [->|(u&U)], (K l' Fl') as [->|(v&V)].
    - cbn in E. now rewrite !app_nil_r in E.
    - exfalso. rewrite V in E. cbn in E. rewrite app_nil_r in E. subst r. assert (X : (r' ++ path ++ v) ++ path = r' ++ path ++ (v ++ path)) by (now rewrite <- !app_assoc). apply C in X. apply app_eq_nil in X as [_ X]. contradiction.
    - exfalso. rewrite U in E. cbn in E. rewrite app_nil_r in E. subst r'. assert (X : (r ++ path ++ u) ++ path = r ++ path ++ (u ++ path)) by (now rewrite <- !app_assoc). apply C' in X. apply app_eq_nil in X as [_ X]. contradiction.
    - rewrite U, V in E. now apply (clear_cut path r r' u v). }
  subst r'. apply app_inv_head in E. f_equal. now apply IH.
Qed.

(** *** Deleting *)
Lemma same_iff a b : same a b = true <-> a = b.
Proof. unfold same. destruct (list_eq_dec ascii_dec a b); split; congruence. Qed.
Lemma in_existsb s l : existsb (same s) l = true <-> In s l.
Proof. rewrite existsb_exists. split; [intros (x&I&E); apply same_iff in E; now subst|intros I; exists s; split; [exact I|now apply same_iff]]. Qed.
Lemma without_iff s l x : In x (without s l) <-> In x l /\ x <> s.
Proof.
  unfold without. rewrite filter_In, negb_true_iff. split; intros [I H]; (split; [exact I|]).
  - intros ->. assert (same s s = true) by now apply same_iff. congruence.
  - destruct (same s x) eqn:E; [apply same_iff in E; congruence|reflexivity].
Qed.
Lemma below_iff d x : below d x = true <-> exists r, x = d ++ r /\ r <> [].
Proof.
  unfold below. rewrite andb_true_iff, negb_true_iff, starts_with_iff. split.
  - intros [(r&->) N]. exists r. split; [reflexivity|]. intros ->. rewrite app_nil_r in N. assert (same d d = true) by now apply same_iff. congruence.
  - intros (r&->&N). split; [eauto|]. destruct (same d (d ++ r)) eqn:E; [|reflexivity]. apply same_iff in E. rewrite <- (app_nil_r d) in E at 1. apply app_inv_head in E. congruence.
Qed.
Notation empty_in := bare.
Lemma rmdir_iff d k k' : rmdir d k = Some k' <-> In d (fdirs k) /\ empty_in d k /\ k' = mkD (ffiles k) (without d (fdirs k)).
Proof.
  unfold rmdir. assert (N : forall l, negb (existsb (below d) l) = true <-> forall r, r <> [] -> ~ In (d ++ r) l).
  { intros l. rewrite not_existsb. split; [intros H r NR I; apply (H _ I), below_iff; eauto|]. intros H x I Q. apply below_iff in Q as (r&->&NR). now apply (H r NR). }
  destruct (existsb (same d) (fdirs k) && negb (existsb (below d) (ffiles k)) && negb (existsb (below d) (fdirs k))) eqn:E.
  - rewrite !andb_true_iff, !N, in_existsb in E. destruct E as [[E1 E2] E3]. split; [intros Q; injection Q as <-|intros (_&_&->); reflexivity].
    split; [exact E1|]. split; [|reflexivity]. intros r NR. auto.
  - split; [discriminate|]. intros (I&EM&_). exfalso. assert (T : existsb (same d) (fdirs k) && negb (existsb (below d) (ffiles k)) && negb (existsb (below d) (fdirs k)) = true).
    { rewrite !andb_true_iff, !N, in_existsb. split; [split; [exact I|]|]; intros r NR; now apply EM. }
    congruence.
Qed.

(** Whatever happens, only what is listed goes, and directories only when empty. *)
Lemma empty_less d k k' : (forall f, In f (ffiles k') -> In f (ffiles k)) -> (forall f, In f (fdirs k') -> In f (fdirs k)) -> empty_in d k -> empty_in d k'.
Proof. intros A B E r NR. destruct (E r NR). split; auto. Qed.

Lemma unlink_all l : forall k, exists k' b, each_ unlink l k = (k', b) /\ fdirs k' = fdirs k /\ (forall f, In f (ffiles k') -> In f (ffiles k)) /\
  (forall f, In f (ffiles k) -> ~ In f l -> In f (ffiles k')) /\ (b = true -> forall f, In f l -> ~ In f (ffiles k')).
Proof.
  induction l as [|x l IH]; intros k; cbn [each_]; [exists k, true; repeat split; auto|].
  unfold unlink at 1. destruct (existsb (same x) (ffiles k)) eqn:E.
  - destruct (IH (mkD (without x (ffiles k)) (fdirs k))) as (k'&b&E1&D&A&B&C). cbn [ffiles fdirs] in *. exists k', b. split; [exact E1|]. split; [exact D|]. split; [|split].
    + intros f I. apply A in I. now apply without_iff in I.
    + intros f I N. apply B; [|intros J; apply N; now right]. apply without_iff. split; [exact I|]. intros ->. apply N. now left.
    + intros Hb f [<-|I]; [|now apply C]. intros J. apply A in J. now apply without_iff in J.
  - exists k, false. repeat split; auto. discriminate.
Qed.
Lemma unlink_ok l : forall k, NoDup l -> (forall f, In f l -> In f (ffiles k)) -> exists k', each_ unlink l k = (k', true).
Proof.
  induction l as [|x l IH]; intros k N H; cbn [each_]; [eauto|]. inversion N; subst. unfold unlink at 1.
  assert (E : existsb (same x) (ffiles k) = true) by (apply in_existsb, H; now left). rewrite E. apply IH; [assumption|]. cbn [ffiles]. intros f I. apply without_iff. split; [apply H; now right|].
  intros ->. contradiction.
Qed.
Lemma rmdir_all l : forall k, exists k' b, each_ rmdir l k = (k', b) /\ ffiles k' = ffiles k /\ (forall d, In d (fdirs k') -> In d (fdirs k)) /\
  (forall d, In d (fdirs k) -> ~ In d (fdirs k') -> In d l /\ empty_in d k') /\ (b = true -> forall d, In d l -> ~ In d (fdirs k')).
Proof.
  induction l as [|x l IH]; intros k; cbn [each_]; [exists k, true; repeat split; auto; contradiction|].
  destruct (rmdir x k) as [k1|] eqn:E.
  - apply rmdir_iff in E as (I&EM&->). destruct (IH (mkD (ffiles k) (without x (fdirs k)))) as (k'&b&E1&F&A&B&C). cbn [ffiles fdirs] in *. exists k', b. split; [exact E1|]. split; [exact F|].
    split; [intros d J; apply A in J; now apply without_iff in J|]. split.
    + intros d J N. destruct (list_eq_dec ascii_dec d x) as [->|NE].
      * split; [now left|]. apply (empty_less x k); [rewrite F; auto| |exact EM]. intros f J'. apply A in J'. now apply without_iff in J'.
      * destruct (B d) as [B1 B2]; [now apply without_iff|exact N|]. split; [now right|exact B2].
    + intros Hb d [<-|J]; [|now apply C]. intros J. apply A in J. now apply without_iff in J.
  - exists k, false. repeat split; auto; [contradiction|discriminate].
Qed.

Lemma remove_lost dirs root path l k : exists k' b, remove_one dirs root path l k = (k', b) /\
  (forall f, In f (ffiles k') -> In f (ffiles k)) /\ (forall d, In d (fdirs k') -> In d (fdirs k)) /\
  (forall f, In f (ffiles k) -> ~ In f (ffiles k') -> In f (map fst (fst l))) /\
  (forall d, In d (fdirs k) -> ~ In d (fdirs k') -> dirs = true /\ (In d (snd l) \/ root = true /\ d = path) /\ empty_in d k') /\
  (b = true -> (forall f, In f (map fst (fst l)) -> ~ In f (ffiles k')) /\ (dirs = true -> (forall d, In d (snd l) -> ~ In d (fdirs k')) /\ (root = true -> ~ In path (fdirs k')))).
Proof.
  unfold remove_one. destruct (unlink_all (map fst (fst l)) k) as (k1&b1&E1&D1&A1&B1&C1). rewrite E1.
  assert (B1' : forall f, In f (ffiles k) -> ~ In f (ffiles k1) -> In f (map fst (fst l))).
  { intros f I N. destruct (in_dec (list_eq_dec ascii_dec) f (map fst (fst l))) as [J|J]; [exact J|]. destruct N. now apply B1. }
  destruct b1.
  2:{ exists k1, false. split; [reflexivity|]. repeat split; auto; try discriminate; try (rewrite D1 in *; contradiction). rewrite D1. auto. }
  specialize (C1 eq_refl). destruct dirs; cbn [andb].
  2:{ exists k1, true. split; [reflexivity|]. repeat split; auto; try discriminate; try (rewrite D1 in *; contradiction). rewrite D1. auto. }
  destruct (rmdir_all (rev (snd l)) k1) as (k2&b2&E2&F2&A2&B2&C2). rewrite E2.
  assert (A2' : forall d, In d (fdirs k2) -> In d (fdirs k)) by (intros d I; rewrite <- D1; auto).
  assert (B2' : forall d, In d (fdirs k) -> ~ In d (fdirs k2) -> In d (snd l) /\ empty_in d k2) by (intros d I N; rewrite <- D1 in I; destruct (B2 d I N) as [X Y]; split; [now apply in_rev|exact Y]).
  assert (FA : forall f, In f (ffiles k2) -> In f (ffiles k)) by (rewrite F2; exact A1).
  assert (FB : forall f, In f (ffiles k) -> ~ In f (ffiles k2) -> In f (map fst (fst l))) by (rewrite F2; exact B1').
  destruct b2.
  2:{ exists k2, false. split; [reflexivity|]. split; [exact FA|]. split; [exact A2'|]. split; [exact FB|]. split; [|discriminate]. intros d I N. destruct (B2' d I N). auto. }
  assert (C2' : forall d, In d (snd l) -> ~ In d (fdirs k2)) by (intros d I; apply C2; [reflexivity|now apply -> in_rev]).
  destruct root; cbn [andb].
  2:{ exists k2, true. split; [reflexivity|]. split; [exact FA|]. split; [exact A2'|]. split; [exact FB|]. split; [intros d I N; destruct (B2' d I N); auto|].
      intros _. split; [rewrite F2; exact C1|]. intros _. split; [exact C2'|discriminate]. }
  destruct (existsb (same path) (fdirs k2)) eqn:EX.
  2:{ exists k2, true. split; [reflexivity|]. split; [exact FA|]. split; [exact A2'|]. split; [exact FB|]. split; [intros d I N; destruct (B2' d I N); auto|].
      intros _. split; [rewrite F2; exact C1|]. intros _. split; [exact C2'|]. intros _ I. apply in_existsb in I. congruence. }
  destruct (rmdir path k2) as [k3|] eqn:E3.
  2:{ exists k2, false. split; [reflexivity|]. split; [exact FA|]. split; [exact A2'|]. split; [exact FB|]. split; [|discriminate]. intros d I N. destruct (B2' d I N). auto. }
  apply rmdir_iff in E3 as (I3&EM&->). eexists _, true. split; [reflexivity|]. cbn [ffiles fdirs]. split; [exact FA|].
  split; [intros d J; apply without_iff in J as [J _]; auto|]. split; [exact FB|]. split.
  - intros d I N. split; [reflexivity|]. destruct (list_eq_dec ascii_dec d path) as [->|NE].
    + split; [right; auto|]. apply (empty_less path k2); cbn; auto. intros f J. now apply without_iff in J.
    + destruct (B2' d I) as [X Y]; [intros J; apply N, without_iff; auto|]. split; [now left|]. apply (empty_less d k2); cbn; auto. intros f J. now apply without_iff in J.
  - intros _. split; [rewrite F2; exact C1|]. intros _. split; [intros d I J; apply without_iff in J as [J _]; now apply (C2' d)|]. intros _ J. now apply without_iff in J.
Qed.

(** Directories in the reverse of their order can be removed one after the other, if all that is in them is among them. *)
Lemma rmdir_chain ds : StronglySorted before ds -> forall k, (forall d, In d ds -> In d (fdirs k)) ->
  (forall d r, In d ds -> r <> [] -> ~ In (d ++ r) (ffiles k)) -> (forall d r, In d ds -> r <> [] -> In (d ++ r) (fdirs k) -> In (d ++ r) ds) ->
  exists k', each_ rmdir (rev ds) k = (k', true).
Proof.
  induction ds as [|d ds IH] using rev_ind; intros SS k I F D; [cbn; eauto|]. rewrite rev_app_distr. cbn [rev app each_].
  assert (SD : StronglySorted before ds /\ forall x, In x ds -> before x d).
  { clear - SS. induction ds as [|y ds IHd]; [split; [constructor|intros ? []]|]. cbn in SS. inversion SS as [|? ? S1 F1]; subst. destruct (IHd S1) as [A B]. rewrite Forall_forall in F1. split.
    - constructor; [exact A|]. apply Forall_forall. intros z J. apply F1. apply in_or_app. now left.
    - intros x [<-|J]; [apply F1, in_or_app; right; now left|auto]. }
  destruct SD as [SD BD].
  assert (E : rmdir d k = Some (mkD (ffiles k) (without d (fdirs k)))).
  { apply rmdir_iff. split; [apply I, in_or_app; right; now left|]. split; [|reflexivity]. intros r NR. split; [apply F; [apply in_or_app; right; now left|exact NR]|].
    intros J. assert (J' : In (d ++ r) (ds ++ [d])) by (apply D; [apply in_or_app; right; now left|exact NR|exact J]).
    apply in_app_or in J' as [J'|[J'|[]]].
    - apply (before_irrefl d). eapply before_trans; [now apply (before_prefix d r)|now apply BD].
    - rewrite <- (app_nil_r d) in J' at 1. apply app_inv_head in J'. congruence. }
  rewrite E. apply IH; [exact SD| | |]; cbn [ffiles fdirs].
  - intros x J. apply without_iff. split; [apply I, in_or_app; now left|]. intros ->. apply (before_irrefl d). now apply BD.
  - intros x r J. apply F, in_or_app. now left.
  - intros x r J NR Q. apply without_iff in Q as [Q NE]. assert (J' : In (x ++ r) (ds ++ [d])) by (apply D; auto; apply in_or_app; now left).
    apply in_app_or in J' as [J'|[J'|[]]]; [exact J'|congruence].
Qed.
