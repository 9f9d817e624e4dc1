From Coq Require Import List Arith Bool Ascii NArith Lia Permutation.
From Verif Require Import M_Path M_Names.
Import ListNotations.

Lemma lower_nul x : lower_char x = nul -> x = nul.
Proof. destruct x as [[] [] [] [] [] [] [] []]; vm_compute; intros; auto; discriminate. Qed.

Lemma equals_i_lower a b : ~ In nul a -> ~ In nul b -> equals_i a b = true <-> lower a = lower b.
Proof.
  revert b. induction a as [|x a IH]; intros [|y b] NA NB; cbn [equals_i lower map].
  - tauto.
  - split; [|discriminate]. intros H. apply Ascii.eqb_eq in H. subst. exfalso. apply NB. now left.
  - split; [|discriminate]. intros H. apply Ascii.eqb_eq in H. subst. exfalso. apply NA. now left.
  - assert (x <> nul) by (intros ->; apply NA; now left).
    replace (Ascii.eqb x nul) with false by (symmetry; now apply Ascii.eqb_neq).
    destruct (Ascii.eqb_spec (lower_char x) (lower_char y)) as [E|E].
    + rewrite IH by (intros Q; first [apply NA; now right | apply NB; now right]). fold (lower a). fold (lower b). rewrite E. split; [now intros ->|]. intros Q. now injection Q.
    + split; [discriminate|congruence].
Qed.

Section G.
Context (hash64 : str -> N) (clean : str -> str).
Notation name_hash := (name_hash hash64).
Notation find_exact := (find_exact hash64).
Notation find_node := (find_node hash64 clean).
Notation declare := (declare hash64 clean).
Notation run := (run hash64 clean).

Lemma hash_lower a b : lower a = lower b -> name_hash a = name_hash b.
Proof. unfold M_Names.name_hash. now intros ->. Qed.

Record ok (g : graph) : Prop := {
  ok_max : exists b, maxkey g = (2 ^ b - 1)%N;
  ok_hash : forall n, In n (all g) -> nhash n = name_hash (nname n);
  ok_bucket : forall k n, In n (buckets g k) <-> In n (all g) /\ N.land (nhash n) (maxkey g) = k;
}.

Lemma land_max h b : (N.land h (2 ^ b - 1) <= 2 ^ b - 1)%N.
Proof.
  rewrite N.sub_1_r, <- N.ones_equiv, N.land_ones. rewrite N.ones_equiv.
  assert (2 ^ b <> 0)%N by (apply N.pow_nonzero; discriminate).
  pose proof (N.mod_lt h (2 ^ b) H). lia.
Qed.
Lemma chain_ok g h : ok g -> chain g (N.land h (maxkey g)) = Some (buckets g (N.land h (maxkey g))).
Proof.
  intros [[b E] _ _]. unfold chain. replace (_ <=? _)%N with true; auto. symmetry. apply N.leb_le. rewrite E. apply land_max.
Qed.

Lemma find_chain_some h name l n : find_chain h name l = Some n -> In n l /\ nhash n = h /\ equals_i (nname n) name = true.
Proof.
  induction l as [|m l IH]; cbn; [discriminate|].
  destruct (nhash m =? h)%N eqn:E; [apply N.eqb_eq in E|intros H; destruct (IH H); auto].
  destruct (equals_i (nname m) name) eqn:Q; [|intros H; destruct (IH H); auto].
  intros H. injection H as ->. auto.
Qed.
Lemma find_chain_none h name l n : find_chain h name l = None -> In n l -> nhash n = h -> equals_i (nname n) name = false.
Proof.
  induction l as [|m l IH]; cbn; [intros _ []|].
  destruct (nhash m =? h)%N eqn:E.
  - destruct (equals_i (nname m) name) eqn:Q; [discriminate|]. intros H [->|HI] HH; auto.
  - apply N.eqb_neq in E. intros H [->|HI] HH; auto. congruence.
Qed.

Definition nn (g : graph) : Prop := forall n, In n (all g) -> ~ In nul (nname n).

Lemma find_exact_spec g name : ok g -> nn g -> ~ In nul name ->
  exists r, find_exact g name = Some r /\
    match r with
    | Some n => In n (all g) /\ lower (nname n) = lower name
    | None => forall n, In n (all g) -> lower (nname n) <> lower name
    end.
Proof.
  intros OK NN NZ. unfold M_Names.find_exact. rewrite chain_ok by auto. eexists. split; [reflexivity|].
  destruct (find_chain _ _ _) as [n|] eqn:E.
  - apply find_chain_some in E. destruct E as (HI&_&EQ). apply (ok_bucket g OK) in HI. destruct HI as [HI _].
    split; auto. apply equals_i_lower; auto.
  - intros n HI EL. 
    assert (HH : nhash n = name_hash name) by (rewrite (ok_hash g OK) by auto; now apply hash_lower).
    apply (find_chain_none _ _ _ n) in E; auto.
    + apply (equals_i_lower (nname n) name) in EL; auto. congruence.
    + apply (ok_bucket g OK). split; auto. now rewrite HH.
Qed.

Lemma add_ok g n : ok g -> nhash n = name_hash (nname n) -> exists g', add_node g n = Some g' /\ ok g' /\ all g' = all g ++ [n] /\ maxkey g' = maxkey g.
Proof.
  intros OK HN. unfold add_node. rewrite chain_ok by auto. eexists. split; [reflexivity|]. split; [|auto].
  split; cbn [maxkey all buckets].
  - apply OK.
  - intros m HI. apply in_app_iff in HI. destruct HI as [HI|[<-|[]]]; auto. now apply (ok_hash g OK).
  - intros k m. destruct (N.eqb_spec k (N.land (nhash n) (maxkey g))) as [->|NE].
    + cbn. rewrite in_app_iff, (ok_bucket g OK). cbn. split.
      * intros [<-|[? ?]]; auto.
      * intros [[?|[<-|[]]] ?]; auto.
    + rewrite in_app_iff, (ok_bucket g OK). cbn. split.
      * intros [? ?]; auto.
      * intros [[?|[<-|[]]] ?]; auto. congruence.
Qed.

Definition uniq (g : graph) : Prop := NoDup (map (fun n => lower (nname n)) (all g)).

Lemma declare_ok (CN : forall s, ~ In nul s -> ~ In nul (clean s)) g f name : ok g -> nn g -> uniq g -> ~ In nul name ->
  exists g', declare g f name = Some g' /\ ok g' /\ nn g' /\ uniq g' /\ maxkey g' = maxkey g /\
    ((exists n, find_node g name = Some (Some n) /\ g' = g) \/
     (find_node g name = Some None /\ map nname (all g') = map nname (all g) ++ [if f then clean name else name])).
Proof.
  intros OK NN UQ NZ. unfold M_Names.declare. 
  destruct (find_exact_spec g name OK NN NZ) as (r1&E1&S1).
  destruct (find_exact_spec g (clean name) OK NN (CN _ NZ)) as (r2&E2&S2).
  unfold M_Names.find_node. rewrite E1. destruct r1 as [n|].
  { exists g. split; [reflexivity|]. split; [exact OK|]. split; [exact NN|]. split; [exact UQ|]. split; [reflexivity|]. left. eauto. }
  rewrite E2. destruct r2 as [n|].
  { exists g. split; [reflexivity|]. split; [exact OK|]. split; [exact NN|]. split; [exact UQ|]. split; [reflexivity|]. left. eauto. }
  unfold create_node. set (nm := if f then clean name else name).
  destruct (add_ok g (mkN nm (name_hash nm)) OK eq_refl) as (g'&EA&OK'&AL&MK). rewrite EA.
  exists g'. split; auto. split; auto. split; [|split; [|split; [auto|]]].
  - intros n HI. rewrite AL in HI. apply in_app_iff in HI. destruct HI as [HI|[<-|[]]]; auto. cbn. unfold nm. destruct f; auto.
  - unfold uniq. rewrite AL, map_app. cbn [map nname]. 
    apply (Permutation_NoDup (l := lower nm :: map (fun n => lower (nname n)) (all g))).
    + change (lower nm :: map (fun n => lower (nname n)) (all g)) with ([lower nm] ++ map (fun n => lower (nname n)) (all g)). apply Permutation_app_comm.
    + constructor; auto. intros HI. apply in_map_iff in HI. destruct HI as (n&Q&HI). unfold nm in Q. destruct f; [apply (S2 n HI Q)|apply (S1 n HI Q)].
  - right. split; auto. rewrite AL, map_app. reflexivity.
Qed.

Lemma new_ok bits : ok (new_graph bits) /\ nn (new_graph bits) /\ uniq (new_graph bits).
Proof. split; [|split; [intros n []|constructor]]. split; cbn; [eauto|intros n []|intros k n; tauto]. Qed.

Lemma run_ok (CN : forall s, ~ In nul s -> ~ In nul (clean s)) ops : forall g, ok g -> nn g -> uniq g -> Forall (fun o => ~ In nul (snd o)) ops ->
  exists g', run g ops = Some g' /\ ok g' /\ nn g' /\ uniq g'.
Proof.
  induction ops as [|[f name] ops IH]; intros g OK NN UQ F; [exists g; auto|].
  inversion F; subst. destruct (declare_ok CN g f name OK NN UQ) as (g'&E&OK'&NN'&UQ'&_); auto.
  cbn [M_Names.run]. rewrite E. now apply IH.
Qed.

Lemma uniq_in g a b : uniq g -> In a (all g) -> In b (all g) -> lower (nname a) = lower (nname b) -> a = b.
Proof.
  unfold uniq. induction (all g) as [|c l IH]; cbn; [intros _ []|]. intros ND HA HB E. inversion ND as [|? ? N1 N2]; subst.
  destruct HA as [<-|HA], HB as [<-|HB]; auto.
  - exfalso. apply N1. rewrite E. apply in_map_iff. eauto.
  - exfalso. apply N1. rewrite <- E. apply in_map_iff. eauto.
Qed.
End G.
