(** Proofs: names of targets. *)
From Coq Require Import String List Arith Bool Ascii ZArith Lia.
From Verif Require Import M_Path M_Names M_Dir M_Props S_Props P_Props.
Import ListNotations.
Open Scope list_scope.

Section Cleaner.
Context (cp : str -> str).

Lemma unfound g y : find_node cp g y = None <-> forall x, In x (map nname g) -> lower x <> lower y /\ lower x <> lower (cp y).
Proof.
  unfold find_node. split.
  - destruct (find_as_is g y) as [k|] eqn:E; [ discriminate | ]. intros H x I.
    apply in_map_iff in I. destruct I as (n & <- & I). apply In_nth_error in I. destruct I as (k & N).
    split; intro Q.
    + apply (proj1 (as_is_none g y) E k). exists n. auto.
    + apply (proj1 (as_is_none g (cp y)) H k). exists n. auto.
  - intro H. rewrite (proj2 (as_is_none g y)).
    + apply as_is_none. intros k (n & N & Q). apply nth_error_In in N. apply (in_map nname) in N. apply H in N. tauto.
    + intros k (n & N & Q). apply nth_error_In in N. apply (in_map nname) in N. apply H in N. tauto.
Qed.
Lemma put_same h k s : put h k s k = s.
Proof. unfold put. now rewrite Nat.eqb_refl. Qed.
Lemma put_other h k s j : j <> k -> put h k s j = h j.
Proof. intro N. unfold put. now rewrite (proj2 (Nat.eqb_neq j k) N). Qed.
Lemma fresh_app l1 : forall have l2, fresh cp have (l1 ++ l2) <-> fresh cp have l1 /\ fresh cp (have ++ l1) l2.
Proof.
  induction l1 as [|y l1 IH]; intros have l2; cbn [app fresh].
  - rewrite app_nil_r. tauto.
  - rewrite IH, <- app_assoc. cbn [app]. tauto.
Qed.
Lemma all_names_app a b : all_names (a ++ b) = all_names a ++ all_names b.
Proof. apply flat_map_app. Qed.

Definition do_calls :=
  fix do_calls (l : list call) (h : headers) (g : graph) : option (headers * graph) :=
    match l with
    | [] => Some (h, g)
    | x :: r => match do_call cp x h g with Some (h1, g1) => do_calls r h1 g1 | None => None end
    end.
Lemma do_call_eq fn header body named h g : do_call cp (Call fn header body named) h g =
  match do_calls body (put h fn header) g with Some (h1, g1) => commit cp h1 g1 fn named | None => None end.
Proof. reflexivity. Qed.

Lemma call_deep (P : call -> Prop) : (forall fn header body named, Forall P body -> P (Call fn header body named)) -> forall c, P c.
Proof.
  intro H. fix IH 1. intros [fn header body named]. apply H. revert body. fix IL 1. intros [|c body]; constructor; [ apply IH | apply IL ].
Qed.

(** The target [x] is in the graph, with its other name. *)
Definition there (g : graph) (x : str * option str) : Prop :=
  exists k n, nth_error g k = Some n /\ nname n = fst x /\ ntype n <> TyAlias /\
    forall a, snd x = Some a -> exists j m, nth_error g j = Some m /\ nname m = a /\ ntype m = TyAlias /\ aliased m = [k].
Lemma there_more g new x : there g x -> there (g ++ new) x.
Proof.
  assert (M : forall k n, nth_error g k = Some n -> nth_error (g ++ new) k = Some n).
  { intros k n H. rewrite nth_error_app1; [ exact H | ]. apply nth_error_Some. congruence. }
  intros (k & n & A & B & C & D). exists k, n. split; [ auto | ]. split; [ exact B | ]. split; [ exact C | ].
  intros a E. destruct (D a E) as (j & m & X & Y). exists j, m. auto.
Qed.

(** What a call has done. *)
Definition outcome (l : list (str * option str)) (us : list nat) (h : headers) (g : graph) (r : option (headers * graph)) : Prop :=
  match r with
  | Some (h', g') => (exists new, g' = g ++ new /\ map nname new = all_names l) /\ Forall (there g') l /\
      fresh cp (map nname g) (all_names l) /\ (forall k, ~ In k us -> h' k = h k)
  | None => ~ fresh cp (map nname g) (all_names l)
  end.

Lemma nth_last (g : graph) n : nth_error (g ++ [n]) (List.length g) = Some n.
Proof. rewrite nth_error_app2 by lia. now rewrite Nat.sub_diag. Qed.
Lemma commit_ok h g fn named header : h fn = header -> (named = None -> header <> []) ->
  outcome [match named with
       | None => (header, None)
       | Some s => (s, match header with [] => None | _ => Some header end)
       end] [fn] h g (commit cp h g fn named).
Proof.
  intros HH NE. unfold commit, outcome. rewrite HH. destruct named as [s|].
  - destruct (find_node cp g s) as [k|] eqn:E.
    + intro F. destruct header; cbn in F; destruct F as [F _]; rewrite <- unfound in F; congruence.
    + pose proof (proj1 (unfound g s) E) as NF. destruct header as [|c u].
      * split; [ exists [mkNode s (TyOther fn) true []]; auto | ]. split.
        { constructor; [ | constructor ]. exists (List.length g), (mkNode s (TyOther fn) true []).
          split; [ apply nth_last | ]. split; [ reflexivity | ]. split; [ discriminate | ]. discriminate. }
        split; [ split; [ exact NF | exact I ] | ]. auto.
      * destruct (find_node cp (g ++ [mkNode s (TyOther fn) true []]) (c :: u)) as [k|] eqn:E2.
        -- cbn [all_names flat_map fst snd app fresh]. intros (_ & F & _).
           assert (X := proj2 (unfound (g ++ [mkNode s (TyOther fn) true []]) (c :: u))).
           rewrite map_app in X. cbn [map nname] in X. rewrite (X F) in E2. discriminate.
        -- pose proof (proj1 (unfound _ _) E2) as NF2. rewrite map_app in NF2. cbn [map nname] in NF2.
           split; [ eexists; split; [ rewrite <- app_assoc; reflexivity | reflexivity ] | ]. split.
           { constructor; [ | constructor ]. exists (List.length g), (mkNode s (TyOther fn) true []).
             split; [ rewrite nth_error_app1; [ apply nth_last | rewrite app_length; cbn; lia ] | ].
             split; [ reflexivity | ]. split; [ discriminate | ]. intros a Q. injection Q as <-.
             eexists. eexists. split; [ apply nth_last | ]. auto. }
           split; [ split; [ exact NF | split; [ exact NF2 | exact I ] ] | ].
           intros k N. apply put_other. intros ->. apply N. now left.
  - specialize (NE eq_refl). destruct (find_node cp g header) as [k|] eqn:E.
    + cbn. intros [F _]. rewrite <- unfound in F. congruence.
    + pose proof (proj1 (unfound g header) E) as NF.
      split; [ exists [mkNode header (TyOther fn) false []]; auto | ]. split.
      { constructor; [ | constructor ]. exists (List.length g), (mkNode header (TyOther fn) false []).
        split; [ apply nth_last | ]. split; [ reflexivity | ]. split; [ discriminate | ]. discriminate. }
      split; [ split; [ exact NF | exact I ] | ]. intros k N. apply put_other. intros ->. apply N. now left.
Qed.
Lemma outcome_seq l1 l2 us1 us2 h g (r : option (headers * graph)) f :
  outcome l1 us1 h g r ->
  (forall h1 g1, r = Some (h1, g1) -> outcome l2 us2 h1 g1 (f h1 g1)) ->
  outcome (l1 ++ l2) (us1 ++ us2) h g (match r with Some (h1, g1) => f h1 g1 | None => None end).
Proof.
  intros A B. destruct r as [[h1 g1]|].
  - specialize (B h1 g1 eq_refl). cbn [outcome] in A. destruct A as ((new & -> & N) & T & F & K).
    destruct (f h1 (g ++ new)) as [[h2 g2]|].
    + cbn [outcome] in *. destruct B as ((new2 & -> & N2) & T2 & F2 & K2). rewrite map_app, N in F2.
      split; [ exists (new ++ new2); split; [ now rewrite app_assoc | rewrite map_app, all_names_app; congruence ] | ].
      split; [ apply Forall_app; split; [ | exact T2 ]; eapply Forall_impl; [ | exact T ]; intros x X; now apply there_more | ].
      split; [ rewrite all_names_app, fresh_app; auto | ].
      intros k NI. rewrite in_app_iff in NI. rewrite K2, K; tauto.
    + cbn [outcome] in *. rewrite map_app, N in B. rewrite all_names_app, fresh_app. tauto.
  - cbn [outcome] in *. rewrite all_names_app, fresh_app. tauto.
Qed.
Definition right (c : call) : Prop := plain_calls c -> forall h g, outcome (makes c) (uses c) h g (do_call cp c h g).
Lemma calls_right l : Forall right l -> fold_right and True (map plain_calls l) ->
  forall h g, outcome (flat_map makes l) (flat_map uses l) h g (do_calls l h g).
Proof.
  induction 1 as [|c r HC F IH]; intros PL h g; cbn [do_calls flat_map].
  - cbn. split; [ exists []; now rewrite app_nil_r | ]. auto.
  - destruct PL as [P1 P2].
    exact (outcome_seq (makes c) (flat_map makes r) (uses c) (flat_map uses r) h g (do_call cp c h g) (do_calls r)
             (HC P1 h g) (fun h1 g1 _ => IH P2 h1 g1)).
Qed.
Lemma all_right c : right c.
Proof.
  induction c as [fn header body named F] using call_deep. intros (NE & NS & PL) h g.
  rewrite do_call_eq. cbn [makes uses].
  assert (X := calls_right body F PL (put h fn header) g).
  assert (Y := fun l2 => outcome_seq (flat_map makes body) l2 (flat_map uses body) [fn] (put h fn header) g
           (do_calls body (put h fn header) g) (fun h1 g1 => commit cp h1 g1 fn named) X).
  assert (Z : outcome (flat_map makes body ++ [match named with
       | None => (header, None)
       | Some s => (s, match header with [] => None | _ => Some header end)
       end]) (flat_map uses body ++ [fn]) (put h fn header) g
       (match do_calls body (put h fn header) g with Some (h1, g1) => commit cp h1 g1 fn named | None => None end)).
  { apply Y. intros h1 g1 E. rewrite E in X. cbn [outcome] in X. destruct X as (_ & _ & _ & K).
    apply commit_ok; [ | exact NE ]. rewrite K by exact NS. apply put_same. }
  destruct (match do_calls body (put h fn header) g with Some (h1, g1) => commit cp h1 g1 fn named | None => None end)
    as [[h2 g2]|]; cbn [outcome] in *; [ | exact Z ].
  destruct Z as (Z1 & Z2 & Z3 & K). repeat (split; [ assumption | ]).
  intros k N. rewrite K; [ apply put_other; intros ->; apply N; now left | ].
  rewrite in_app_iff. intros [I|[<-|[]]]; apply N; [ now right | now left ].
Qed.
End Cleaner.
