(** Copy(): the files that the sources stand for, and their targets. *)
From Coq Require Import String Ascii List Arith Bool Lia.
From Verif Require Import T_Path.
From Verif Require Import M_Path M_Names M_Dir M_Drv M_Xcode M_Copy S_Copy P_Drv P_Xcode P_Vcx2.
Import ListNotations.
Local Open Scope list_scope.

Lemma files_ok : forall x l, files x = Some l -> forall f, In f l <-> stands_for f x.
Proof.
  fix IH 1. intros [n|n ts|n] l H f; cbn in H.
  - injection H as <-. split; [intros [<-|[]]; constructor|intros Q; inversion Q; now left].
  - assert (K : In f l <-> exists y, In y ts /\ stands_for f y).
    { revert l H. induction ts as [|y r IHr]; intros l H.
      - injection H as <-. split; [easy|now intros (?&?&_)].
      - destruct (files y) as [a|] eqn:A; [|discriminate]. destruct ((fix all (l0 : list node) := _) r) as [b|] eqn:B; [|discriminate]. injection H as <-. rewrite in_app_iff, (IH y a A f), (IHr b eq_refl). split.
        + intros [Q|(z&Q1&Q2)]; [exists y; split; [now left|exact Q]|exists z; split; [now right|exact Q2]].
        + intros (z&[->|Q1]&Q2); [now left|right; now exists z]. }
    rewrite K. split; [intros (y&Q1&Q2); econstructor; eauto|]. intros Q. inversion Q; subst. eauto.
  - discriminate.
Qed.
Lemma files_none : forall x, files x = None -> unsupported x.
Proof.
  fix IH 1. intros [n|n ts|n] H; cbn in H; [discriminate| |constructor].
  assert (K : exists y, In y ts /\ unsupported y).
  { revert H. induction ts as [|y r IHr]; intros H; [discriminate|]. destruct (files y) as [a|] eqn:A; [|exists y; split; [now left|now apply IH]].
    destruct ((fix all (l0 : list node) := _) r) as [b|] eqn:B; [discriminate|]. destruct (IHr eq_refl) as (z&Z1&Z2). exists z. split; [now right|exact Z2]. }
  destruct K as (y&Y1&Y2). econstructor; eauto.
Qed.

Lemma files_some : forall x l, files x = Some l -> ~ unsupported x.
Proof.
  fix IH 1. intros [n|n ts|n] l H U; cbn in H; [inversion U| |discriminate].
  assert (K : forall y, In y ts -> ~ unsupported y).
  { revert l H. clear U. induction ts as [|y r IHr]; intros l H z J; [easy|]. destruct (files y) as [a|] eqn:A; [|discriminate]. destruct J as [<-|I].
    - now apply (IH y a).
    - destruct ((fix all (l0 : list node) := _) r) as [b|] eqn:B; [|discriminate]. now apply (IHr b eq_refl). }
  inversion U; subst. eapply K; eauto.
Qed.

Lemma lookup_some g n x : lookup g n = Some x -> In x g /\ lower (name x) = lower n.
Proof. intros H. apply find_some in H. destruct H as (A&B). split; [exact A|now apply teq_eq]. Qed.
Lemma lookup_none g n : lookup g n = None <-> unused g n.
Proof.
  split.
  - intros H x I E. eapply find_none in H; [|exact I]. cbn in H. apply teq_ne in H. congruence.
  - intros U. destruct (lookup g n) as [x|] eqn:E; [|easy]. apply lookup_some in E. destruct E as (I&Q). now apply U in I.
Qed.
Lemma unused_app g h n : unused (g ++ h) n <-> unused g n /\ unused h n.
Proof. unfold unused. setoid_rewrite in_app_iff. firstorder. Qed.
Lemma unused_lower g n m : lower n = lower m -> unused g n -> unused g m.
Proof. unfold unused. intros E U x I. rewrite <- E. now apply U. Qed.

Section C.
Context (p : plat) (clean : str -> str).
Hypothesis clean_clean : forall s, clean (clean s) = clean s.
Hypothesis clean_lower : forall a b, lower a = lower b -> lower (clean a) = lower (clean b).

Lemma find_none_iff g n : find clean g n = None <-> external clean g n.
Proof.
  unfold find, external. destruct (lookup g n) as [x|] eqn:E.
  - split; [discriminate|]. intros (U&_). apply lookup_none in U. congruence.
  - rewrite lookup_none. apply lookup_none in E. tauto.
Qed.
Lemma find_knows g n x : find clean g n = Some x -> knows clean g n x.
Proof.
  unfold find, knows. destruct (lookup g n) as [y|] eqn:E.
  - intros [= ->]. apply lookup_some in E. tauto.
  - intros H. apply lookup_some in H. apply lookup_none in E. tauto.
Qed.
Lemma knows_unique g n x y : differ g -> knows clean g n x -> knows clean g n y -> x = y.
Proof.
  intros D (I&[A|(A1&A2)]) (J&[B|(B1&B2)]); apply D; auto; try congruence; exfalso; [now apply (B1 x I)|now apply (A1 y J)].
Qed.
Lemma knows_find g n x : differ g -> knows clean g n x -> find clean g n = Some x.
Proof.
  intros D K. destruct (find clean g n) as [y|] eqn:E.
  - f_equal. apply find_knows in E. eapply knows_unique; eauto.
  - apply find_none_iff in E. destruct E as (U1&U2), K as (I&[K|(_&K)]); exfalso; [now apply (U1 x I)|now apply (U2 x I)].
Qed.
Lemma external_knows g n x : external clean g n -> ~ knows clean g n x.
Proof. intros (U1&U2) (I&[K|(_&K)]); [now apply (U1 x I)|now apply (U2 x I)]. Qed.

(** The graph that was there, and the sources that have been added. *)
Section G.
Context (g : list node) (D : differ g) (all : list str).
Definition news (h : list node) : Prop := forall y, In y h -> exists s, In s all /\ y = File (clean s) /\ external clean g s.
Lemma find_new h s : news h ->
  match find clean (g ++ h) s with
  | Some x => knows clean g s x \/ (external clean g s /\ exists s', In s' all /\ external clean g s' /\ x = File (clean s') /\ In x h /\ lower (clean s') = lower (clean s))
  | None => external clean g s /\ external clean (g ++ h) s
  end.
Proof.
  intros NH. destruct (find clean (g ++ h) s) as [x|] eqn:E.
  - apply find_knows in E. destruct E as (I&E). apply in_app_iff in I. destruct I as [I|I].
    + left. split; [exact I|]. destruct E as [E|(U&E)]; [now left|right]. apply unused_app in U. tauto.
    + right. destruct (NH x I) as (s'&S1&->&X1&X2). cbn [name] in E.
      assert (Q : lower (clean s') = lower (clean s)) by (destruct E as [E|(_&E)]; [rewrite <- (clean_clean s'); now apply clean_lower|exact E]).
      assert (X : external clean g s).
      { destruct E as [E|(U&E)].
        - split; [now apply (unused_lower g (clean s'))|now apply (unused_lower g (clean s'))].
        - apply unused_app in U. split; [tauto|]. now apply (unused_lower g (clean s')). }
      split; [exact X|]. exists s'. repeat split; auto.
  - apply find_none_iff in E. split; [|exact E]. destruct E as (U1&U2). apply unused_app in U1. apply unused_app in U2. split; tauto.
Qed.
Lemma gather_ok ss : forall h g' fs, incl ss all -> news h -> gather clean (g ++ h) ss = Some (g', fs) ->
  (exists h', g' = g ++ h' /\ news h' /\ incl h h') /\
  (forall f, In f fs -> (exists s x, In s ss /\ knows clean g s x /\ stands_for f x) \/ (exists s, In s all /\ external clean g s /\ f = clean s /\ In (File f) g')) /\
  (forall s x f, In s ss -> knows clean g s x -> stands_for f x -> In f fs) /\
  (forall s, In s ss -> external clean g s -> exists f, In f fs /\ lower f = lower (clean s)).
Proof.
  induction ss as [|s r IH]; intros h g' fs SI NH H; cbn [gather] in H.
  - injection H as <- <-. split; [exists h; split; [easy|split; [exact NH|apply incl_refl]]|]. split; [easy|]. split; easy.
  - pose proof (find_new h s NH) as F. destruct (find clean (g ++ h) s) as [x|] eqn:E.
    + destruct (files x) as [a|] eqn:A; [|discriminate]. destruct (gather clean (g ++ h) r) as [[g2 b]|] eqn:R; [|discriminate]. injection H as <- <-.
      destruct (IH h g2 b ltac:(intros z Z; apply SI; now right) NH R) as ((h'&->&N'&I')&K1&K2&K3). pose proof (files_ok x a A) as FO. split; [now exists h'|]. split; [|split].
      * intros f IF. apply in_app_iff in IF. destruct IF as [IF|IF].
        -- apply FO in IF. destruct F as [F|(X&s'&S1&S2&->&S3&S4)]; [left; exists s, x; split; [now left|auto]|right]. inversion IF; subst. exists s'. repeat split; auto; try apply S2. apply in_or_app. right. now apply I'.
        -- destruct (K1 f IF) as [(s1&x1&Q1&Q2)|Q]; [left; exists s1, x1; split; [now right|exact Q2]|now right].
      * intros s1 x1 f [<-|Q] KN ST; apply in_or_app; [left|right; eauto]. apply FO. destruct F as [F|(X&_)]; [now rewrite (knows_unique g s x x1 D F KN)|now apply (external_knows g s x1 X) in KN].
      * intros s1 [<-|Q] X; [|destruct (K3 s1 Q X) as (f&F1&F2); exists f; split; [apply in_or_app; now right|exact F2]]. destruct F as [F|(_&s'&S1&S2&->&S3&S4)]; [now apply (external_knows g s x X) in F|]. exists (clean s'). split; [apply in_or_app; left; apply FO; constructor|exact S4].
    + rewrite <- app_assoc in H. destruct (gather clean (g ++ h ++ [File (clean s)]) r) as [[g2 b]|] eqn:R; [|discriminate]. injection H as <- <-. destruct F as (X&_).
      assert (NH' : news (h ++ [File (clean s)])) by (intros y I; apply in_app_iff in I; destruct I as [I|[<-|[]]]; [now apply NH|exists s; split; [apply SI; now left|auto]]).
      destruct (IH _ g2 b ltac:(intros z Z; apply SI; now right) NH' R) as ((h'&->&N'&I')&K1&K2&K3). split; [|split; [|split]].
      * exists h'. split; [easy|]. split; [exact N'|]. intros y I. apply I'. apply in_or_app. now left.
      * intros f [<-|IF]; [right; exists s; split; [apply SI; now left|]; split; [exact X|]; split; [easy|]; apply in_or_app; right; apply I', in_or_app; right; now left|].
        destruct (K1 f IF) as [(s1&x1&Q1&Q2)|Q]; [left; exists s1, x1; split; [now right|exact Q2]|now right].
      * intros s1 x1 f [<-|Q] KN ST; [now apply (external_knows g s x1 X) in KN|right; eauto].
      * intros s1 [<-|Q] X1; [exists (clean s); split; [now left|easy]|]. destruct (K3 s1 Q X1) as (f&F1&F2). exists f. split; [now right|exact F2].
Qed.
Lemma gather_files ss : forall h q, incl ss all -> news h -> gather clean (g ++ h) ss = Some q -> forall s x, In s ss -> knows clean g s x -> ~ unsupported x.
Proof.
  induction ss as [|s r IH]; intros h q SI NH H s1 x1 I K; cbn [gather] in H; [easy|]. pose proof (find_new h s NH) as F. destruct (find clean (g ++ h) s) as [x|] eqn:E.
  - destruct (files x) as [a|] eqn:A; [|discriminate]. destruct (gather clean (g ++ h) r) as [q2|] eqn:R; [|discriminate]. destruct I as [<-|I].
    + destruct F as [F|(X&_)]; [rewrite <- (knows_unique g s x x1 D F K); now apply (files_some x a)|now apply (external_knows g s x1 X) in K].
    + refine (IH h q2 _ NH R s1 x1 I K). intros z Z. apply SI. now right.
  - rewrite <- app_assoc in H. destruct (gather clean (g ++ h ++ [File (clean s)]) r) as [q2|] eqn:R; [|discriminate]. destruct F as (X&_). destruct I as [<-|I]; [now apply (external_knows g s x1 X) in K|].
    refine (IH (h ++ [File (clean s)]) q2 _ _ R s1 x1 I K); [intros z Z; apply SI; now right|]. intros y J; apply in_app_iff in J; destruct J as [J|[<-|[]]]; [now apply NH|exists s; split; [apply SI; now left|auto]].
Qed.
Lemma gather_none ss : forall h, incl ss all -> news h -> gather clean (g ++ h) ss = None -> exists s x, In s ss /\ knows clean g s x /\ unsupported x.
Proof.
  induction ss as [|s r IH]; intros h SI NH H; cbn [gather] in H; [discriminate|]. pose proof (find_new h s NH) as F. destruct (find clean (g ++ h) s) as [x|] eqn:E.
  - destruct (files x) as [a|] eqn:A.
    + destruct (gather clean (g ++ h) r) as [[g2 b]|] eqn:R; [discriminate|]. destruct (IH h ltac:(intros z Z; apply SI; now right) NH R) as (s1&x1&Q1&Q2). exists s1, x1. split; [now right|exact Q2].
    + apply files_none in A. destruct F as [F|(_&s'&_&_&->&_)]; [exists s, x; split; [now left|auto]|inversion A].
  - rewrite <- app_assoc in H. destruct (gather clean (g ++ h ++ [File (clean s)]) r) as [[g2 b]|] eqn:R; [discriminate|]. destruct F as (X&_).
    destruct (IH (h ++ [File (clean s)])) as (s1&x1&Q1&Q2); [intros z Z; apply SI; now right| |exact R|exists s1, x1; split; [now right|exact Q2]].
    intros y I; apply in_app_iff in I; destruct I as [I|[<-|[]]]; [now apply NH|exists s; split; [apply SI; now left|auto]].
Qed.
End G.

(** Targets. *)
Definition target (base d f : str) : str := if is_folder p d then d ++ part p base f else d.
Lemma copies_cons base d g f r : copies p clean base d g (f :: r) =
  match find clean g (target base d f) with
  | Some _ => None
  | None => match copies p clean base d (g ++ [File (clean (target base d f))]) r with None => None | Some t => Some ((f, clean (target base d f)) :: t) end
  end.
Proof. reflexivity. Qed.
Lemma copies_ok base d fs : forall g out, copies p clean base d g fs = Some out ->
  out = map (fun f => (f, clean (target base d f))) fs /\ NoDup (map (fun o => lower (snd o)) out) /\ (forall o, In o out -> unused g (snd o)).
Proof.
  induction fs as [|f r IH]; intros g out H.
  - injection H as <-. split; [easy|]. split; [constructor|easy].
  - rewrite copies_cons in H. destruct (find clean g (target base d f)) eqn:E; [discriminate|]. apply find_none_iff in E. destruct E as (_&U).
    destruct (copies p clean base d (g ++ _) r) as [t|] eqn:C; [|discriminate]. injection H as <-. destruct (IH _ _ C) as (->&N&K). split; [easy|]. split.
    + cbn [map snd]. constructor; [|exact N]. intros I. apply in_map_iff in I. destruct I as (o&O1&O2). apply K, unused_app in O2. destruct O2 as (_&O2). apply (O2 _ (or_introl eq_refl)). cbn [name]. now symmetry.
    + intros o [<-|I]; [exact U|]. apply K, unused_app in I. tauto.
Qed.
Lemma copies_made base d fs : forall g, (forall f, In f fs -> external clean g (target base d f)) -> NoDup (map (fun f => lower (clean (target base d f))) fs) ->
  copies p clean base d g fs = Some (map (fun f => (f, clean (target base d f))) fs).
Proof.
  induction fs as [|f r IH]; intros g X N; [easy|]. rewrite copies_cons. rewrite (proj2 (find_none_iff g (target base d f)) (X f (or_introl eq_refl))). cbn [map] in N. inversion N as [|? ? N1 N2]; subst.
  rewrite IH; [easy| |exact N2]. intros f' I. destruct (X f' (or_intror I)) as (U1&U2).
  assert (K : lower (clean (target base d f)) <> lower (clean (target base d f'))) by (intros Q; apply N1; rewrite Q; apply in_map_iff; now exists f').
  split; apply unused_app; (split; [assumption|]); intros x [<-|[]]; cbn [name]; [|exact K]. intros Q. apply K. rewrite <- (clean_clean (target base d f)). now apply clean_lower.
Qed.

(** When all sources are files. *)
Lemma gather_made g (D : differ g) all ss : forall fs h, incl ss all -> news g all h -> Forall2 (fun s f => knows clean g s (File f) \/ (external clean g s /\ f = clean s)) ss fs ->
  NoDup (map lower fs) -> (forall y f, In y h -> In f fs -> lower (name y) <> lower f) -> exists h', gather clean (g ++ h) ss = Some (g ++ h ++ h', fs) /\ (forall y, In y h' -> exists f, In f fs /\ y = File f).
Proof.
  induction ss as [|s r IH]; intros fs h SI NH F N DF; inversion F as [|? f ? fr F1 F2]; subst; cbn [gather].
  - exists []. rewrite app_nil_r. split; [easy|]. easy.
  - cbn [map] in N. inversion N as [|? ? N1 N2]; subst. pose proof (find_new g all h s NH) as FN. destruct (find clean (g ++ h) s) as [x|] eqn:E.
    + destruct F1 as [F1|(X&->)].
      * destruct FN as [FN|(X&_)]; [|now apply (external_knows g s _ X) in F1]. rewrite (knows_unique g s x _ D FN F1). cbn [files].
        destruct (IH fr h) as (h'&G&H'); [intros z Z; apply SI; now right|exact NH|exact F2|exact N2|intros y f' I J; apply DF; [exact I|now right]|]. rewrite G. exists h'. split; [easy|]. intros y I. destruct (H' y I) as (f'&Q&->). exists f'. split; [now right|easy].
      * exfalso. destruct FN as [FN|(_&s'&_&_&->&S3&S4)]; [now apply (external_knows g s x X) in FN|]. apply (DF _ (clean s) S3 (or_introl eq_refl)). exact S4.
    + destruct FN as (X&_). destruct F1 as [F1|(_&->)]; [now apply (external_knows g s _ X) in F1|]. rewrite <- app_assoc.
      destruct (IH fr (h ++ [File (clean s)])) as (h'&G&H').
      * intros z Z; apply SI; now right.
      * intros y I; apply in_app_iff in I; destruct I as [I|[<-|[]]]; [now apply NH|exists s; split; [apply SI; now left|auto]].
      * exact F2.
      * exact N2.
      * intros y f' I J. apply in_app_iff in I. destruct I as [I|[<-|[]]]; [apply DF; [exact I|now right]|]. cbn [name]. intros Q. apply N1. rewrite Q. now apply in_map.
      * rewrite G. exists (File (clean s) :: h'). split; [now rewrite <- !app_assoc|]. intros y [<-|I]; [exists (clean s); split; [now left|easy]|]. destruct (H' y I) as (f'&Q&->). exists f'. split; [now right|easy].
Qed.

(** The part of a source. *)
Lemma part_ok base f : (base <> [] /\ below p base f (part p base f)) \/ ((base = [] \/ ~ exists r, below p base f r) /\ file_name p f (part p base f)).
Proof.
  unfold part. destruct base as [|c b].
  - right. split; [now left|]. cbn [negb andb]. unfold file_name. destruct (last_at (native p) f) as [k|] eqn:E; [right|left].
    + apply last_some in E. destruct E as (E1&E2&_). split; [exact E2|]. now exists (firstn k f).
    + apply last_none in E. auto.
  - cbn [negb andb]. set (B := c :: b). destruct (begins_with p f B) eqn:W.
    + left. split; [easy|]. unfold below. unfold begins_with in W. exists (firstn (length B) f). split; [symmetry; apply firstn_skipn|]. destruct (windows p).
      * apply begins_iff in W. destruct W as (h&r&->&Q). assert (LB : length h = length B) by (apply (f_equal (@length _)) in Q; unfold lower in Q; now rewrite !map_length in Q). rewrite <- LB, firstn_app, firstn_all, Nat.sub_diag. cbn [firstn]. now rewrite app_nil_r.
      * apply starts_with_iff in W. destruct W as (t&->). rewrite firstn_app, firstn_all, Nat.sub_diag. cbn [firstn]. apply app_nil_r.
    + right. split.
      * right. intros (r&h&->&Q). unfold begins_with in W. rewrite <- not_true_iff_false in W. apply W. destruct (windows p); [apply begins_iff; exists h, r; auto|apply starts_with_iff; exists r; now rewrite Q].
      * unfold file_name. destruct (last_at (native p) f) as [k|] eqn:E; [right|left].
        -- apply last_some in E. destruct E as (E1&E2&_). split; [exact E2|]. now exists (firstn k f).
        -- apply last_none in E. auto.
Qed.
End C.
