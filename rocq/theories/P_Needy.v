(** Proofs about M_Needy: the counters, and how far a worker lets itself in. *)

From Coq Require Import List Bool Arith Lia.
From Verif Require Import M_Needy S_Needy.
Import ListNotations.

(** ** Lists of clients *)

Definition total (f : client -> nat) (l : list client) : nat := list_sum (map f l).

Lemma total_cons f x l : total f (x :: l) = f x + total f l.
Proof. reflexivity. Qed.

Lemma upd_length i c l : length (upd i c l) = length l.
Proof. revert i; induction l as [|x l IH]; intros [|i]; cbn; auto. Qed.

Lemma upd_same i c l x : nth_error l i = Some x -> nth_error (upd i c l) i = Some c.
Proof. revert i; induction l as [|y l IH]; intros [|i] E; cbn in *; try discriminate; auto. Qed.

Lemma upd_other i j c l : i <> j -> nth_error (upd i c l) j = nth_error l j.
Proof.
  revert i j; induction l as [|y l IH]; intros [|i] [|j] E; cbn in *; try congruence; auto.
Qed.

Lemma upd_total f i c l x :
  nth_error l i = Some x -> total f (upd i c l) + f x = total f l + f c.
Proof.
  revert i; induction l as [|y l IH]; intros [|i] E; cbn [nth_error upd] in *;
    try discriminate; rewrite !total_cons.
  - inversion E; subst. lia.
  - specialize (IH i E). lia.
Qed.

Lemma upd_Forall (P : client -> Prop) i c l : Forall P l -> P c -> Forall P (upd i c l).
Proof.
  intros F Pc. revert i; induction F as [|y l Py F IH]; intros [|i]; cbn; auto.
Qed.

Lemma drop_Forall (P : client -> Prop) i l : Forall P l -> Forall P (drop i l).
Proof.
  intros F. revert i; induction F as [|y l Py F IH]; intros [|i]; cbn; auto.
Qed.

Lemma drop_total f i l : total f (drop i l) <= total f l.
Proof.
  revert i; induction l as [|y l IH]; intros [|i]; cbn [drop]; rewrite ?total_cons; try lia.
  specialize (IH i). lia.
Qed.

Lemma total_app f l k : total f (l ++ k) = total f l + total f k.
Proof. unfold total. rewrite map_app, list_sum_app. reflexivity. Qed.

Lemma firstn_upd_total f i c l x k :
  nth_error l i = Some x ->
  total f (firstn k (upd i c l)) + (if i <? k then f x else 0)
  = total f (firstn k l) + (if i <? k then f c else 0).
Proof.
  revert i k; induction l as [|y l IH]; intros [|i] [|k] E;
    cbn [nth_error upd firstn] in *; try discriminate; auto; rewrite ?total_cons.
  - inversion E; subst. cbn [Nat.ltb Nat.leb]. lia.
  - specialize (IH i k E). change (S i <? S k) with (i <? k). lia.
Qed.

Lemma firstn_next f k l x :
  nth_error l k = Some x -> total f (firstn (S k) l) = total f (firstn k l) + f x.
Proof.
  revert k; induction l as [|y l IH]; intros [|k] E; cbn [nth_error] in E; try discriminate.
  - inversion E; subst. cbn. lia.
  - specialize (IH k E). change (firstn (S (S k)) (y :: l)) with (y :: firstn (S k) l).
    change (firstn (S k) (y :: l)) with (y :: firstn k l). rewrite !total_cons, IH. lia.
Qed.

Lemma Forall_nth (P : client -> Prop) l i c : Forall P l -> nth_error l i = Some c -> P c.
Proof. intros F E. apply nth_error_In in E. rewrite Forall_forall in F. auto. Qed.

(** ** Counters *)

Definition exact (c : client) : Prop := req c = owed c /\ act c = held c.

Definition is_next (o : outcome) (P : state -> Prop) : Prop :=
  match o with Next s => P s | Blocked => True | Failed => False end.

Lemma step_exact a s :
  Forall exact (clients s) ->
  is_next (step a s) (fun t => Forall exact (clients t)).
Proof.
  intros F. destruct a; cbn [step].
  - destruct (srv s); cbn; auto. destruct (n =? 0); cbn; auto.
  - destruct (go _ _); cbn; auto.
  - destruct (srv s); cbn; auto. destruct (_ && _); cbn; auto.
  - destruct (srv s); cbn; auto.
    destruct (nth_error (clients s) i) as [c|] eqn:E; cbn; auto.
    destruct ok; cbn; auto. apply upd_Forall; [exact F|].
    destruct (Forall_nth _ _ _ _ F E) as [A B]. split; cbn; auto.
  - destruct (srv s); cbn; auto.
    destruct (nth_error (clients s) i) as [c|] eqn:E; cbn; auto.
    destruct (Forall_nth _ _ _ _ F E) as [A B].
    destruct (held c =? 0) eqn:H; cbn; auto.
    rewrite B, H. cbn. apply upd_Forall; [exact F|]. split; cbn; auto.
  - destruct (srv s); cbn; auto. apply Forall_app. split; [exact F|].
    constructor; [split; reflexivity|constructor].
  - destruct (srv s); cbn; auto.
    destruct (nth_error (clients s) i) as [c|] eqn:E; cbn; auto.
    destruct (mid c); cbn; auto. apply drop_Forall, F.
  - destruct (nth_error (clients s) i) as [c|] eqn:E; cbn; auto.
    destruct (mid c) eqn:M; cbn; auto.
    destruct (Forall_nth _ _ _ _ F E) as [A B].
    apply upd_Forall; [exact F|]. split; cbn; auto.
  - destruct (nth_error (clients s) i) as [c|] eqn:E; cbn; auto.
    destruct (Forall_nth _ _ _ _ F E) as [A B]. rewrite A.
    destruct (mid c); cbn; auto. destruct (owed c =? 0) eqn:O; cbn; auto.
    apply upd_Forall; [exact F|]. split; cbn; auto.
  - destruct (nth_error (clients s) i) as [c|] eqn:E; cbn; auto.
    destruct (Forall_nth _ _ _ _ F E) as [A B]. rewrite A.
    destruct (mid c); cbn; auto. destruct (owed c =? 0) eqn:O; cbn; auto.
    apply upd_Forall; [exact F|]. split; cbn; auto.
  - destruct (nth_error (clients s) i) as [c|] eqn:E; cbn; auto.
    destruct (Forall_nth _ _ _ _ F E) as [A B].
    destruct (mid c); cbn; auto.
    apply upd_Forall; [exact F|]. split; cbn; auto.
Qed.

Lemma run_exact h s :
  Forall exact (clients s) ->
  is_next (run h s) (fun t => Forall exact (clients t)).
Proof.
  revert s; induction h as [|a h IH]; intros s F; cbn [run]; [exact F|].
  pose proof (step_exact a s F) as S. destruct (step a s); cbn in S; auto.
Qed.

Lemma run_app h k s :
  run (h ++ k) s = match run h s with Next t => run k t | o => o end.
Proof.
  revert s; induction h as [|a h IH]; intros s; cbn; [reflexivity|].
  destruct (step a s); auto.
Qed.

(** ** The bound *)

Definition slack (k : nat) (l : list client) : Prop :=
  k = 1 \/ (k = 0 /\ Forall (fun c => mid c = false) l).

(** What the server's thread knows in a round that went by [n] processors,
    if at most [k] jobs per client were being received as it looked. *)
Definition bounded (n k : nat) (s : state) : Prop :=
  let l := clients s in
  match srv s with
  | Idle => True
  | Count i acc =>
      i <= length l /\ 0 < acc /\ total burden1 (firstn i l) + acc <= n + 1 + k * i
  | CountA i r acc =>
      0 < acc /\ total burden1 (firstn i l) + acc <= n + 1 + k * i /\
      (forall c, nth_error l i = Some c -> req c <= r)
  | Pass _ _ acc _ | Seen _ _ _ _ acc _ | Try _ _ _ acc _ =>
      0 < acc /\ burden s + acc <= n + 1 + k * length l
  end.

(** A step of another thread makes no client more of a burden, and keeps its
    requests from growing. *)
Definition eases (l l' : list client) : Prop :=
  length l' = length l /\
  (forall i, total burden1 (firstn i l') <= total burden1 (firstn i l)) /\
  (forall i c, nth_error l' i = Some c -> exists d, nth_error l i = Some d /\ req c <= req d).

Lemma upd_eases i c l x :
  nth_error l i = Some x -> burden1 c <= burden1 x -> req c <= req x ->
  eases l (upd i c l).
Proof.
  intros E B R. split; [apply upd_length|]. split.
  - intros k. pose proof (firstn_upd_total burden1 i c l x k E). destruct (i <? k); lia.
  - intros j d D. destruct (Nat.eq_dec i j) as [<-|N].
    + rewrite (upd_same i c l x E) in D. inversion D; subst. eauto.
    + rewrite (upd_other i j c l N) in D. eauto.
Qed.

Lemma eases_refl l : eases l l.
Proof. split; [reflexivity|]. split; [reflexivity|]. eauto. Qed.

Lemma eases_burden l l' p p' : eases l l' -> burden (mkS l' p) <= burden (mkS l p').
Proof.
  intros [L [B _]]. specialize (B (length l)). rewrite firstn_all in B.
  rewrite <- L, firstn_all in B. exact B.
Qed.

Lemma eases_bounded n k l l' p :
  eases l l' -> bounded n k (mkS l p) -> bounded n k (mkS l' p).
Proof.
  intros Z H. pose proof (eases_burden l l' p p Z) as Bu. destruct Z as [L [B R]].
  destruct p as [|i acc|i r acc|o t acc any|o i r t acc any|o i t acc any]; cbn in *; auto.
  - rewrite L. specialize (B i). lia.
  - specialize (B i). split; [lia|]. split; [lia|]. intros c E.
    destruct (R i c E) as [d [D Q]]. destruct H as [_ [_ H]]. specialize (H d D). lia.
  - rewrite L. lia.
  - rewrite L. lia.
  - rewrite L. lia.
Qed.

(** Steps of the other threads. *)
Definition other (a : label) : bool :=
  match a with Status _ _ | NoJob _ | JobIn _ | JobQueued _ => true | _ => false end.

Lemma other_eases a s t :
  other a = true -> Forall exact (clients s) -> step a s = Next t ->
  eases (clients s) (clients t) /\ srv t = srv s.
Proof.
  intros O F E. destruct a; try discriminate O; cbn [step] in E;
    destruct (nth_error (clients s) i) as [c|] eqn:C; try discriminate E;
    destruct (Forall_nth _ _ _ _ F C) as [A B].
  - destruct (mid c) eqn:M; inversion E; subst; cbn. split; [|reflexivity].
    apply upd_eases with c; [exact C|unfold burden1|]; cbn; rewrite ?M; lia.
  - destruct (mid c) eqn:M; cbn in E; [discriminate E|].
    destruct (owed c =? 0) eqn:Z; [discriminate E|]. apply Nat.eqb_neq in Z.
    destruct (req c =? 0); inversion E; subst; cbn. split; [|reflexivity].
    apply upd_eases with c; [exact C|unfold burden1|]; cbn; rewrite ?M; lia.
  - destruct (mid c) eqn:M; cbn in E; [discriminate E|].
    destruct (owed c =? 0) eqn:Z; [discriminate E|]. apply Nat.eqb_neq in Z.
    destruct (req c =? 0); inversion E; subst; cbn. split; [|reflexivity].
    apply upd_eases with c; [exact C|unfold burden1|]; cbn; rewrite ?M; lia.
  - destruct (mid c) eqn:M; cbn in E; inversion E; subst; cbn. split; [|reflexivity].
    apply upd_eases with c; [exact C|unfold burden1|]; cbn; rewrite ?M; lia.
Qed.

Lemma go_bounded n k l p q :
  slack k l -> Forall exact l -> bounded n k (mkS l p) -> go l p = Some q ->
  bounded n k (mkS l q).
Proof.
  intros K F B E.
  destruct p as [|i acc|i r acc|o t acc any|o i r t acc any|o i t acc any];
    cbn [go] in E; try discriminate E.
  - destruct (nth_error l i) as [c|] eqn:C; inversion E; subst. cbn in *.
    split; [lia|]. split; [lia|]. intros d D. rewrite C in D. inversion D; subst. auto.
  - destruct (nth_error l i) as [c|] eqn:C; [|discriminate E].
    destruct (acc <=? r + act c) eqn:Q; inversion E; subst; cbn [bounded srv clients]; auto.
    apply Nat.leb_gt in Q. cbn in B. destruct B as [P [B R]].
    split; [apply nth_error_Some; rewrite C; discriminate|]. split; [lia|].
    rewrite (firstn_next burden1 i l c C). specialize (R c C).
    destruct (Forall_nth _ _ _ _ F C) as [A1 A2].
    assert (M : burden1 c <= req c + act c + k).
    { unfold burden1. destruct K as [K|[K M]].
      - destruct (mid c); lia.
      - rewrite (Forall_nth _ _ _ _ M C). lia. }
    rewrite Nat.mul_succ_r. lia.
  - destruct t as [|i t].
    + destruct any; inversion E; subst; cbn; auto.
    + destruct (nth_error l i) as [c|] eqn:C; inversion E; subst. exact B.
  - destruct (nth_error l i) as [c|] eqn:C; [|discriminate E].
    destruct (avail c <=? r); inversion E; subst; exact B.
Qed.

(** One step of a round keeps what the server's thread knows. *)
Lemma step_bounded n k a s t :
  slack k (clients s) -> Forall exact (clients s) ->
  (forall m, a <> Start m) ->
  bounded n k s -> step a s = Next t -> bounded n k t.
Proof.
  intros K F Ns B E. destruct (other a) eqn:O.
  - destruct (other_eases a s t O F E) as [Z P]. destruct s as [l p], t as [l' p'].
    cbn in P, Z. subst p'. apply eases_bounded with l; assumption.
  - destruct s as [l p]. destruct a; try discriminate O; cbn [step clients srv] in E.
    + exfalso; apply (Ns n0 eq_refl).
    + destruct (go l p) as [q|] eqn:G; inversion E; subst.
      apply go_bounded with p; assumption.
    + destruct p as [|i acc| | | |]; try discriminate E.
      destruct ((i =? length l) && is_order ord (length l)) eqn:Q; inversion E; subst.
      apply andb_true_iff in Q. destruct Q as [Q _]. apply Nat.eqb_eq in Q. subst i.
      cbn in *. rewrite firstn_all in B. change (0 < acc /\ total burden1 l + acc <= n + 1 + k * length l). lia.
    + destruct p as [| | | | |o i todo acc any]; try discriminate E.
      destruct (nth_error l i) as [c|] eqn:C; try discriminate E.
      destruct ok; inversion E; subst; [|exact B].
      cbn [bounded srv clients] in B. destruct B as [P B].
      destruct (acc - 1 =? 0) eqn:Z; cbn [bounded srv clients]; [exact I|].
      apply Nat.eqb_neq in Z. split; [lia|]. rewrite upd_length.
      pose proof (upd_total burden1 i (ask c) l c C) as U.
      unfold burden in *. cbn [clients] in *. unfold total in U.
      assert (W : burden1 (ask c) = S (burden1 c)) by reflexivity. lia.
    + destruct p; try discriminate E. destruct (nth_error l i); try discriminate E.
      destruct (held c =? 0); try discriminate E. destruct (act c =? 0); inversion E; subst. exact I.
    + destruct p; inversion E; subst. exact I.
    + destruct p; try discriminate E. destruct (nth_error l i); try discriminate E.
      destruct (mid c); inversion E; subst. exact I.
Qed.

Lemma cpus_app h k n : cpus (h ++ k) n = cpus k (cpus h n).
Proof. revert n; induction h as [|a h IH]; intros n; cbn; [reflexivity|]. destruct a; apply IH. Qed.

Lemma run_last h a t :
  run (h ++ [a]) start = Next t ->
  exists s, run h start = Next s /\ step a s = Next t.
Proof.
  rewrite run_app. destruct (run h start) as [| |s]; try discriminate.
  cbn. intros E. exists s. split; [reflexivity|]. destruct (step a s); congruence.
Qed.

Lemma start_bounded n k s t : step (Start n) s = Next t -> bounded n k t.
Proof.
  cbn. destruct s as [l p]. cbn. destruct p; try discriminate.
  destruct (n =? 0); intros E; inversion E; subst; cbn; auto. unfold total; cbn. lia.
Qed.

Lemma run_bounded h s : run h start = Next s -> bounded (cpus h 0) 1 s.
Proof.
  revert s. induction h as [|a h IH] using rev_ind; intros t E.
  - inversion E; subst. exact I.
  - destruct (run_last _ _ _ E) as [s [R S]]. rewrite cpus_app.
    assert (F : Forall exact (clients s)).
    { pose proof (run_exact h start (Forall_nil _)) as X. rewrite R in X. exact X. }
    destruct a.
    1: apply start_bounded with s; exact S.
    all: cbn [cpus]; eapply step_bounded; [left; reflexivity|exact F| |apply IH; exact R|exact S];
      intros m; discriminate.
Qed.
