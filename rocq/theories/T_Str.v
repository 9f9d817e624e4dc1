(** C78: strings.  Whatever is done with any number of strings, as long as each use is in order, stays inside
    the memory that is theirs, leaves in each string the text it should and gives all memory back. *)
From Coq Require Import String List Arith Bool Ascii NArith Lia.
From Verif Require Import M_Path M_Names M_Array M_Str S_Str P_Str P_Str2 P_Str3 P_Str4 P_Str5.
Import ListNotations.
Local Notation length := List.length.

(** Every list of uses that are in order runs to its end: no byte is read or written outside of a live block,
    nothing is freed that is not live memory of the heap, and the texts and numbers are those of the
    specification, whatever fresh memory contains. *)
Theorem C78_histories : forall (junk : nat -> ascii) (l : list op), in_order [] l ->
  exists w ns, run junk empty_world l = Some (w, ns) /\ does [] l (texts w) ns.
Proof.
  intros junk l I. destruct (run_ok junk l empty_world wf_empty I) as (w & ns & E & _ & D). exists w, ns. split; auto.
Qed.
Print Assumptions C78_histories.

(** After it, every string is terminated in its block: Get() can be read as a C string, whose first
    GetLength() characters are the text. *)
Theorem C78_terminated : forall junk l w ns i v, in_order [] l -> run junk empty_world l = Some (w, ns) ->
  is_live (texts w) i v ->
  exists s r, live w i = Some s /\ len s = length v /\ mem (blocks w) (base s) = Some (v ++ nul :: r).
Proof.
  intros junk l w ns i v I E Lv. destruct (run_ok junk l empty_world wf_empty I) as (w' & ns' & E' & W & _).
  rewrite E in E'. injection E' as <- <-. destruct (is_live_holds w i v W Lv) as (s & Ls & Hs).
  destruct (holds_mem _ _ _ Hs) as [r M]. exists s, r. split; auto. split; auto. eapply holds_len; eauto.
Qed.
Print Assumptions C78_terminated.

(** Every block of the heap that is not yet freed belongs to exactly one string that is alive; so nothing is
    left when all are destroyed. *)
Theorem C78_no_leak : forall junk l w ns b m, in_order [] l -> run junk empty_world l = Some (w, ns) ->
  nth_error (blocks w) b = Some (Some (true, m)) ->
  exists i s, live w i = Some s /\ at_ s = Some b /\ own s = true /\
    forall j t, live w j = Some t -> at_ t = Some b -> j = i.
Proof.
  intros junk l w ns b m I E Hb. destruct (run_ok junk l empty_world wf_empty I) as (w' & ns' & E' & W & _).
  rewrite E in E'. injection E' as <- <-. destruct (wf_leak w W b m Hb) as (i & s & Ls & As). exists i, s.
  split; auto. split; auto. split.
  - destruct (wf_holds w W i s Ls) as [v Hv]. unfold holds in Hv. rewrite As in Hv. destruct Hv as (r & Hv & _). congruence.
  - intros j t Lt At. destruct (Nat.eq_dec j i) as [|N]; auto. exfalso. eapply (wf_apart w W j i); eauto.
Qed.
Print Assumptions C78_no_leak.

Theorem C78_all_given_back : forall junk l w ns, in_order [] l -> run junk empty_world l = Some (w, ns) ->
  (forall i v, ~ is_live (texts w) i v) -> forall b m, nth_error (blocks w) b <> Some (Some (true, m)).
Proof.
  intros junk l w ns I E D b m Hb. destruct (C78_no_leak junk l w ns b m I E Hb) as (i & s & Ls & _).
  apply (D i (text (blocks w) s)). apply is_live_iff. eauto.
Qed.
Print Assumptions C78_all_given_back.

(** A string may be appended to itself and assigned from a part of itself (both are in order above), but
    [s += s.Get() + a] runs out of its memory, or reads memory it has just freed, whenever the string has
    the room or owns its memory. *)
Theorem C78_own_text_refuted : forall junk l w ns i u a s, in_order [] l -> run junk empty_world l = Some (w, ns) ->
  is_live (texts w) i u -> ~ In nul u -> a < length u -> fits (length u + length u) ->
  live w i = Some s -> own s = true \/ length u + (length u - a) <= res s ->
  step junk w (OAppendZ i (ZStr i a)) = None.
Proof.
  intros junk l w ns i u a s I E Lu Nu La Hf Ls Hc. destruct (run_ok junk l empty_world wf_empty I) as (w' & ns' & E' & W & _).
  rewrite E in E'. injection E' as <- <-. destruct (is_live_holds w i u W Lu) as (t & Lt & Ht). rewrite Ls in Lt. injection Lt as <-.
  cbn [step zptr]. rewrite Ls. pose proof (holds_len _ _ _ Ht) as Ln.
  unfold on. rewrite Ls. now rewrite (self_append_bad junk _ s u a Ht Nu La Hf Hc).
Qed.
Print Assumptions C78_own_text_refuted.

(** A string constructed with no room reserved takes the shared empty text for memory it owns. *)
Theorem C78_reserve_zero_refuted : forall junk w, exists w', step junk w (ONewReserve 0) = Some (w', 0) /\
  step junk w' (ODestroy (length (strs w))) = None.
Proof.
  intros junk w. eexists. split; [reflexivity|]. cbn [step]. unfold live. cbn [strs push_new fst snd].
  rewrite nth_error_app2 by lia. rewrite Nat.sub_diag. reflexivity.
Qed.
Print Assumptions C78_reserve_zero_refuted.

(** Two strings of 4 GiB together: the length of the sum is cut to 32 bits and the copy leaves the memory. *)
Theorem C78_wrap_refuted : forall junk l w ns i j u v, in_order [] l -> run junk empty_world l = Some (w, ns) ->
  i <> j -> is_live (texts w) i u -> is_live (texts w) j v -> (4294967296 <= N.of_nat (length u + length v))%N ->
  step junk w (OAppend i j) = None.
Proof.
  intros junk l w ns i j u v I E Nij Lu Lv Hw. destruct (run_ok junk l empty_world wf_empty I) as (w' & ns' & E' & W & _).
  rewrite E in E'. injection E' as <- <-. destruct (is_live_holds w i u W Lu) as (s & Ls & Hs).
  destruct (is_live_holds w j v W Lv) as (t & Lt & Ht). cbn [step]. rewrite Lt. unfold on. rewrite Ls.
  rewrite (proj2 (Nat.eqb_neq _ _) Nij). now rewrite (append_wrap_bad junk _ _ _ _ _ Hs Ht Hw).
Qed.
Print Assumptions C78_wrap_refuted.

(** A case: a stack string that outgrows its storage, a copy that is appended to itself, a move, a replacement
    of characters and the destruction of all. *)
Definition zs (s : string) : ztext := ZLit (list_ascii_of_string s).
Definition uses : list op :=
  [ONewStack 4; OAppendZ 0 (zs "obj/"); OAppendZ 0 (zs "a.cpp"); ONewCopy 0; OAppend 1 1;
   OReplaceChar 1 "/"%char "\"%char 0; OTrim 1 4 9; ONewMove 1; OUpper 2; OAssignRange 0 (RStr 0 4 1); OPush 0 "x"%char].
Definition junk0 (n : nat) : ascii := "?"%char.
Example C78_case : option_map (fun x => (texts (fst x), snd x)) (run junk0 empty_world uses) =
  Some ([Some (list_ascii_of_string "ax"); Some []; Some (list_ascii_of_string "A.CPP")], [0; 0; 0; 0; 0; 2; 0; 0; 0; 0; 0]).
Proof. vm_compute. reflexivity. Qed.

(** The first of these uses are in order, by the specification alone. *)
Lemma becomes_eq vs i v vs' : becomes vs i v vs' -> vs' = firstn i vs ++ v :: skipn (S i) vs.
Proof.
  intros (Ln & At & Ot). revert i vs' Ln At Ot. induction vs as [|x vs IH]; intros i [|y vs'] Ln At Ot; try discriminate.
  - destruct i; discriminate.
  - destruct i as [|i]; cbn [firstn skipn app].
    + injection At as ->. f_equal. apply nth_ext_eq; [cbn in Ln; lia|]. intros k. exact (Ot (S k) ltac:(lia)).
    + pose proof (Ot 0 ltac:(lia)) as E. injection E as ->. f_equal. apply IH; [cbn in Ln; lia|exact At|].
      intros k Nk. exact (Ot (S k) ltac:(lia)).
Qed.
Lemma small n : n <= 1000 -> fits n.
Proof. unfold fits. lia. Qed.
Example C78_in_order : in_order []
  [ONewStack 4; OAppendZ 0 (zs "obj/"); OAppendZ 0 (zs "a.cpp"); ONewCopy 0; OAppend 1 1; OTrim 1 4 9; ONewMove 1; OUpper 2; ODestroy 0].
Proof.
  assert (NI : forall l, forallb (fun c => negb (Ascii.eqb c nul)) l = true -> ~ In nul l).
  { intros l E I. rewrite forallb_forall in E. specialize (E _ I). discriminate. }
  split; [apply small; cbn; lia|]. intros v1 n1 (_ & u & -> & ->).
  split. { exists [], (list_ascii_of_string "obj/"). split; [reflexivity|]. split; [split; [apply NI; reflexivity|reflexivity]|].
    split; [apply small; cbn; lia|left; exact I]. }
  intros v2 n2 (_ & u & u' & E & (z & (_ & ->) & ->) & B). injection E as <-. apply becomes_eq in B. subst v2.
  split. { eexists _, (list_ascii_of_string "a.cpp"). split; [reflexivity|]. split; [split; [apply NI; reflexivity|reflexivity]|].
    split; [apply small; cbn; lia|left; exact I]. }
  intros v2 n3 (_ & u & u' & E & (z & (_ & ->) & ->) & B). injection E as <-. apply becomes_eq in B. subst v2.
  split; [eexists; reflexivity|]. intros v2 n4 (_ & u & E & ->). injection E as <-.
  split. { eexists _, _. split; [reflexivity|]. split; [reflexivity|]. apply small. cbn. lia. }
  intros v2 n5 (_ & u & u' & E & (z & E' & ->) & B). injection E as <-. injection E' as <-. apply becomes_eq in B. subst v2.
  split. { eexists. split; [reflexivity|]. cbn. lia. }
  intros v2 n6 (_ & u & u' & E & _ & B). apply becomes_eq in B. subst v2.
  split; [eexists; reflexivity|]. intros v2 n7 (_ & u1 & ws & E1 & B & ->). apply becomes_eq in B. subst ws.
  split; [eexists; reflexivity|]. intros v2 n8 (_ & u2 & u3 & E2 & _ & B). apply becomes_eq in B. subst v2.
  split; [eexists; reflexivity|]. intros v2 n9 _. exact I.
Qed.
