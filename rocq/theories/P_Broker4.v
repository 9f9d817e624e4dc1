(** A worker that had no address and gets one, for C91. *)
From Coq Require Import String Ascii List Bool Arith NArith ZArith Lia.
From Verif Require Import M_Path M_Args M_Broker S_Broker P_Broker P_Broker2.
Import ListNotations.
Local Open Scope list_scope.
Local Open Scope Z_scope.

Section Root.
Variable root : str.

Definition addressed (s : server) : Prop := ip s = [] \/ exists a, ip s = dotted a.
Lemma address_ok a : address a = [] \/ exists b, address a = dotted b.
Proof. unfold address. destruct (_ || _)%bool; [now left|right; now exists a]. Qed.
Lemma clean_ip now c s f : ip (fst (clean now c s f)) = ip s /\ host (fst (clean now c s f)) = host s.
Proof. unfold clean. destruct (_ <=? _); split; reflexivity. Qed.
Lemma publish_ip now c s f : addressed s -> addressed (fst (publish root now c s f)).
Proof.
  intros H. unfold publish. destruct (_ <=? _); [|exact H]. unfold look_up. destruct (_ || _ || _)%bool; [destruct (_ || _ || _)%bool|]; cbn [fst ip set_token];
  unfold addressed; cbn [ip]; [apply address_ok|exact H|exact H].
Qed.
Lemma call_ip now c s f : addressed s -> addressed (fst (set_availability root now c s f)).
Proof.
  intros H. unfold set_availability. assert (H0 : addressed (set_token root s)) by exact H.
  destruct (if want c then publish root now c (set_token root s) f else withdraw now c (set_token root s) f) as (s1&f1) eqn:E.
  assert (H1 : addressed s1).
  { destruct (want c).
    - change s1 with (fst (s1, f1)). rewrite <- E. now apply publish_ip.
    - unfold withdraw in E. destruct (avail _); injection E as <- _; exact H0. }
  unfold addressed. rewrite (proj1 (clean_ip _ _ _ _)). exact H1.
Qed.
Lemma addressed_step w e : (forall j, addressed (servers w j)) -> forall j, addressed (servers (step root w e) j).
Proof.
  intros H j. destruct e as [d|i c|i|i ok]; cbn [step].
  - apply H.
  - destruct (set_availability root (clock w) c (servers w i) (folder w)) as (s'&f') eqn:E. cbn [servers]. unfold upd. destruct (Nat.eqb j i); [|apply H].
    change s' with (fst (s', f')). rewrite <- E. apply call_ip, H.
  - cbn [servers]. unfold upd. destruct (Nat.eqb j i); [now left|apply H].
  - cbn [servers]. unfold upd. destruct (Nat.eqb j i); [now left|apply H].
Qed.
Lemma addressed_run t0 f h j : addressed (servers (run root (start t0 f) h) j).
Proof.
  revert j. induction h as [|e h IH] using rev_ind; intros j; [now left|]. rewrite run_snoc. now apply addressed_step.
Qed.

(** Without an address, every call that publishes asks again. *)
Lemma asks now c s f : ip s = [] -> want c = true -> between_updates <= now - t_update s ->
  name_of (fst (set_availability root now c s f)) = identity c.
Proof.
  intros HI HW HU. unfold set_availability. rewrite HW.
  destruct (publish root now c (set_token root s) f) as (s1&f1) eqn:E. 
  assert (N1 : name_of s1 = identity c).
  { unfold publish in E. cbn [set_token t_update] in E. replace (between_updates <=? now - t_update s) with true in E by (symmetry; now apply Z.leb_le).
    unfold look_up in E. cbn [host ip set_token t_ip] in E. rewrite HI in E. rewrite orb_true_r in E. cbn [orb] in E.
    destruct (_ || _ || _)%bool eqn:C in E; injection E as <- _; unfold name_of; cbn [ip host set_token].
    - symmetry. apply identity_address.
    - rewrite !orb_false_iff, !negb_false_iff, !str_eqb_eq in C. cbn [ip host set_token] in C. destruct C as ((C1&_)&C3). rewrite identity_address, C3, C1. reflexivity. }
  cbn [fst]. unfold name_of. rewrite !(proj1 (clean_ip _ _ _ _)), (proj2 (clean_ip _ _ _ _)). exact N1.
Qed.

Lemma new_address owner t0 f i h d c name t :
  Forall obeyed h -> Forall (owned owner) h -> ~ In (Crash i) h -> left_by_others root owner f t0 i ->
  has_token root owner (folder (run root (start t0 f) h)) i name t -> (forall a, name <> dotted a) ->
  (10 <= d)%N -> want c = true -> served c -> owner (identity c) = i ->
  exists t', has_token root owner (folder (run root (start t0 f) (h ++ [Tick d; Call i c]))) i (identity c) t'.
Proof.
  intros Ho Hw Hc Hf (Hi&Hn) NA Hd HW HS HO.
  destruct (J_run root owner t0 i f h Ho Hw Hc Hf) as (_&_&_&J4). pose proof (K_run root owner t0 f h Ho Hw) as HK.
  destruct (J4 name t Hi Hn) as (X1&_). rewrite run_app. set (w := run root (start t0 f) h) in *. destruct (HK i) as (K1&_&_&_&K5&_).
  assert (I0 : ip (servers w i) = []).
  { destruct (addressed_run t0 f h i) as [Z|(a&Z)]; [exact Z|]. exfalso. apply (NA a). rewrite X1. unfold name_of. fold w in Z. rewrite Z. destruct (dotted a) eqn:E; [|reflexivity]. 
    assert (dotted a <> []) by (unfold dotted; intros X; apply app_eq_nil in X as (_&X); discriminate X). congruence. }
  change (run root w [Tick d; Call i c]) with (step root (step root w (Tick d)) (Call i c)). cbn [step clock servers folder].
  set (now := clock w + Z.of_N d). destruct (set_availability root now c (servers w i) (folder w)) as (s'&f') eqn:E.
  assert (U : between_updates <= now - t_update (servers w i)) by (unfold between_updates, now; lia).
  pose proof (asks now c (servers w i) (folder w) I0 HW U) as A. rewrite E in A. cbn [fst] in A.
  destruct (call_true root now c _ _ _ _ E HW HS K1) as (_&_&_&[(B&_)|(_&_&_&_&B)]); [unfold between_updates in *; lia|].
  cbn [folder]. exists now. split; [|exact HO]. rewrite <- A. apply B. now left.
Qed.
End Root.
