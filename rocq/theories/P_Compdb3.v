(** The whole database. *)

From Coq Require Import String List Bool Arith Ascii Lia.
From Verif Require Import M_Path M_Args S_Args M_Drv S_Drv M_Compdb S_Compdb P_Compdb P_Compdb2.
Import ListNotations.
Local Open Scope list_scope.

Section Platform.
Context (p : plat) (g : graph) (rank : nat -> nat) (dir : str).
Hypothesis down : forall n nd m, nth_error g n = Some nd -> In m (deps nd) -> rank m < rank n.
Hypothesis shut : closed g.

Definition is_list (n : nat) : bool :=
  match nth_error g n with Some nd => match kind nd with ObjList _ => true | _ => false end | None => false end.
Definition is_dir (n : nat) : Prop := exists nd path files, nth_error g n = Some nd /\ kind nd = DirList path files.

Definition of_list (n : nat) (es : list entry) : Prop :=
  exists nd o srcs, nth_error g n = Some nd /\ kind nd = ObjList o /\ sources g nd o srcs /\ Forall2 (entry_for p dir o) srcs es.

Lemma post_reach : forall a b, post g (a ++ b) -> (forall n, In n a -> n < List.length g) ->
  forall roots, incl roots a -> forall m, reach g roots m -> In m a.
Proof.
  intros a b P Rg roots I m R. induction R as [n J|n nd m R IH E J]; [now apply I|].
  apply in_split in IH as (x & y & S). rewrite S in P. rewrite <- app_assoc in P. cbn [app] in P.
  pose proof (P x n (y ++ b) eq_refl nd E m J) as K. rewrite S. apply in_app_iff. now left.
Qed.

Lemma flat_full : forall o l, flat_map (fun x => entry_text p dir o (fst x) (snd x)) l = flat_map full (map (entry_of p dir o) l).
Proof.
  intros o. induction l as [|[f base] l IH]; [reflexivity|]. cbn [flat_map map fst snd]. rewrite IH, entry_body. reflexivity.
Qed.

Lemma emit_spec : forall fuel b a built, post g (a ++ b) -> (forall n, In n (a ++ b) -> n < List.length g /\ rank n <= fuel) ->
  (forall n, In n a -> is_dir n -> In n built) ->
  exists per, emit p fuel g dir built b = Some (flat_map full (concat per)) /\ Forall2 of_list (filter is_list b) per /\
              Forall (fun e => e_arguments e <> []) (concat per).
Proof.
  intros fuel. induction b as [|n b IH]; intros a built P R B.
  - exists []. repeat split; constructor.
  - assert (Rn : n < List.length g /\ rank n <= fuel) by (apply R, in_elt).
    assert (P' : post g ((a ++ [n]) ++ b)) by (now rewrite <- app_assoc).
    assert (R' : forall m, In m ((a ++ [n]) ++ b) -> m < List.length g /\ rank m <= fuel) by (rewrite <- app_assoc; exact R).
    cbn [emit filter]. unfold is_list at 1. destruct (nth_error g n) as [nd|] eqn:E; [|apply nth_error_None in E; lia].
    assert (Bn : ~ is_dir n -> forall m, In m (a ++ [n]) -> is_dir m -> In m built).
    { intros Nd m I D. apply in_app_iff in I as [I|[<-|[]]]; [now apply B|now elim Nd]. }
    destruct (kind nd) as [path files|o|i|pb] eqn:K.
    + apply (IH (a ++ [n])); auto. intros m I D. apply in_app_iff in I as [I|[<-|[]]]; [right; now apply B|now left].
    + assert (Nd : ~ is_dir n) by (intros (nd' & pa & fs & E' & K'); congruence).
      destruct (enumerate_sources g rank down shut fuel built n nd o) as (l & El & Sl); [lia|exact E| |].
      { intros m nd' path files Rm Em Km. apply B; [|exists nd', path, files; auto].
        apply (post_reach a (n :: b) P) with (roots := deps nd); [|apply (P a n b eq_refl nd E)|exact Rm]. intros x I. apply R. apply in_app_iff. now left. }
      rewrite El. destruct (IH (a ++ [n]) built P' R' (Bn Nd)) as (per & Ep & Fp & Ap). rewrite Ep. cbn [option_map].
      exists (map (entry_of p dir o) l :: per). split; [|split].
      * f_equal. cbn [concat]. rewrite flat_map_app, flat_full. reflexivity.
      * constructor; [|exact Fp]. exists nd, o, l. repeat split; auto. clear. induction l as [|s l IH]; constructor; auto. apply entry_of_for.
      * cbn [concat]. apply Forall_app. split; [|exact Ap]. apply Forall_forall. intros e I. apply in_map_iff in I as (s & <- & _). discriminate.
    + apply (IH (a ++ [n])); auto. apply Bn. intros (nd' & pa & fs & E' & K'); congruence.
    + apply (IH (a ++ [n])); auto. apply Bn. intros (nd' & pa & fs & E' & K'); congruence.
Qed.
End Platform.

Lemma bound : forall (rank : nat -> nat) n, exists k, forall m, m < n -> rank m < k.
Proof.
  intros rank. induction n as [|n (k & IH)]; [exists 0; lia|]. exists (S (Nat.max k (rank n))). intros m M.
  destruct (Nat.eq_dec m n) as [->|N]; [lia|]. specialize (IH m). lia.
Qed.

Lemma generate_spec : forall p g dir roots, acyclic g -> closed g -> (forall n, In n roots -> n < List.length g) ->
  exists k, forall fuel, k <= fuel -> exists entries t, database p g dir roots entries /\ generate p fuel g dir roots = Some t /\
    (Forall ascii_entry entries -> document (JArray (map json_of entries)) t).
Proof.
  intros p g dir roots (rank & down) shut Rt. destruct (bound rank (List.length g)) as (k & Hk). exists k. intros fuel Hf.
  assert (Rr : forall n, In n roots -> rank n < fuel /\ n < List.length g).
  { intros n I. split; auto. pose proof (Hk n (Rt n I)). lia. }
  destruct (traversal g rank down shut fuel roots Rr) as (seen & out & V & Nd & Po & Re).
  assert (Ro : forall n, In n out -> n < List.length g).
  { intros n I. apply Re in I. destruct I as [n I|n nd m I E J]; [now apply Rt|eapply shut; eauto]. }
  destruct (emit_spec p g rank dir down shut fuel out [] []) as (per & Ep & Fp & Ap).
  - exact Po.
  - intros n I. split; [now apply Ro|]. pose proof (Hk n (Ro n I)). lia.
  - intros n [].
  - exists (concat per). unfold generate. rewrite V, Ep. eexists. split; [|split; [reflexivity|]].
    + exists (filter (is_list g) out), per. split; [now apply NoDup_filter|]. split; [|split; [exact Fp|reflexivity]].
      intros n. rewrite filter_In, Re. unfold is_list. split.
      * intros (R & I). split; [exact R|]. destruct (nth_error g n) as [nd|]; [|discriminate]. destruct (kind nd) eqn:K; try discriminate. eauto.
      * intros (R & nd & o & E & K). split; [exact R|]. now rewrite E, K.
    + intros A. apply document_of. apply Forall_forall. intros e I. rewrite Forall_forall in A, Ap. split; auto.
Qed.
