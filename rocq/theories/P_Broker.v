(** Lemmas about the calls of workers, for C91. *)
From Coq Require Import String Ascii List Bool Arith NArith ZArith Lia.
From Verif Require Import M_Path M_Broker S_Broker.
Import ListNotations.
Local Open Scope list_scope.
Local Open Scope Z_scope.

Lemma str_eqb_eq a b : str_eqb a b = true <-> a = b.
Proof. unfold str_eqb. destruct (list_eq_dec ascii_dec a b); split; congruence. Qed.
Lemma str_eqb_neq a b : str_eqb a b = false <-> a <> b.
Proof. unfold str_eqb. destruct (list_eq_dec ascii_dec a b); split; congruence. Qed.

Definition name_of (s : server) : str := match ip s with [] => host s | _ => ip s end.
Lemma token_path_name root s : token_path root s = root ++ name_of s.
Proof. reflexivity. Qed.

Lemma dotted_not_nil a : dotted a <> [].
Proof. unfold dotted. intro E. apply (f_equal (@List.length _)) in E. rewrite !app_length in E. cbn in E. lia. Qed.

Lemma identity_address c : identity c = match address (my_ip c) with [] => my_host c | _ => address (my_ip c) end.
Proof.
  unfold identity, address. destruct (N.eqb (my_ip c) 0); cbn [orb]; [reflexivity|].
  destruct (N.eqb (my_ip c) 16777343); [reflexivity|].
  pose proof (dotted_not_nil (my_ip c)) as Hd. destruct (dotted (my_ip c)); [congruence|reflexivity].
Qed.

Lemma in_remove f p x : In x (remove true f p) <-> In x f /\ fst x <> p.
Proof.
  unfold remove. rewrite filter_In. rewrite negb_true_iff, str_eqb_neq. tauto.
Qed.
Lemma in_write f p t x : In x (write true f p t) <-> x = (p, t) \/ (In x f /\ fst x <> p).
Proof. unfold write. cbn [In]. rewrite in_remove. split; intros [H|H]; auto. Qed.
Lemma here_in f p : here f p = true <-> exists t, In (p, t) f.
Proof.
  unfold here. rewrite existsb_exists. split.
  - intros ((q & t) & Hi & He). apply str_eqb_eq in He. cbn in He. subst. eauto.
  - intros (t & Hi). exists (p, t). split; [assumption|]. apply str_eqb_eq. reflexivity.
Qed.

Section Root.
Variable root : str.

Lemma clean_fields now c s f s' f' : clean now c s f = (s', f') ->
  avail s' = avail s /\ host s' = host s /\ domain s' = domain s /\ ip s' = ip s /\ token s' = token s /\
  t_update s' = t_update s /\ t_ip s' = t_ip s /\
  t_clean s' = (if between_cleans <=? now - t_clean s then now else t_clean s).
Proof.
  unfold clean. destruct (between_cleans <=? now - t_clean s); intro E; injection E as <- <-; cbn; repeat split.
Qed.

Lemma clean_in now c s f s' f' x : clean now c s f = (s', f') -> can_list c = true -> can_remove c = true ->
  (In x f' <-> In x f /\ (between_cleans <= now - t_clean s -> now - snd x <= clean_older)).
Proof.
  unfold clean. intros E Hl Hr. rewrite Hl, Hr in E.
  destruct (between_cleans <=? now - t_clean s) eqn:B; injection E as <- <-.
  - apply Z.leb_le in B. rewrite filter_In. rewrite andb_true_r, negb_true_iff, andb_false_iff, Z.ltb_ge, Z.ltb_ge.
    unfold clean_older in *. split; intros (H1 & H2); (split; [assumption|]); [intros _; lia|right; auto].
  - apply Z.leb_gt in B. split; [intro H; split; [assumption|intro; lia]|tauto].
Qed.

(** What a call that publishes does. *)
Lemma publish_spec now c s f s' f' :
  publish root now c s f = (s', f') -> token s = token_path root s -> served c -> (host s = [] -> ip s = []) ->
  between_updates <= now - t_update s ->
  host s' <> [] /\ token s' = token_path root s' /\ t_update s' = now /\ t_clean s' = t_clean s /\
  ((name_of s' = identity c /\ t_ip s' = now) \/
   (name_of s' = name_of s /\ t_ip s' = t_ip s /\ host s <> [] /\ now - t_ip s < between_lookups)) /\
  (forall x, In x f' <-> x = (token s', now) \/ (In x f /\ fst x <> token s' /\ fst x <> token s)).
Proof.
  intros E Ht (Hr & Hto & Hw & Hl & Hh) Hip Hb. unfold publish in E.
  replace (between_updates <=? now - t_update s) with true in E by (symmetry; apply Z.leb_le; assumption).
  destruct (look_up root now c s f) as ((s1 & f1) & changed) eqn:Elook.
  assert (Spec : host s1 <> [] /\ token s1 = token_path root s1 /\ t_clean s1 = t_clean s /\
    ((name_of s1 = identity c /\ t_ip s1 = now) \/
     (name_of s1 = name_of s /\ t_ip s1 = t_ip s /\ host s <> [] /\ now - t_ip s < between_lookups)) /\
    ((changed = true /\ f1 = remove true f (token s)) \/ (changed = false /\ f1 = f /\ token s1 = token s))).
  { unfold look_up in Elook.
    destruct (_ || _ || _)%bool eqn:Eask in Elook.
    - destruct (_ || _ || _)%bool eqn:Ech in Elook; injection Elook as <- <- <-.
      + cbn [set_token host token t_clean]. split; [assumption|]. split; [reflexivity|]. split; [reflexivity|]. split.
        * left. split; [|reflexivity]. unfold name_of. cbn [ip host set_token]. symmetry. apply identity_address.
        * left. rewrite Hr. auto.
      + rewrite !orb_false_iff, !negb_false_iff, !str_eqb_eq in Ech. destruct Ech as ((E1 & E2) & E3).
        cbn [host token t_clean]. split; [congruence|]. split; [rewrite Ht; reflexivity|]. split; [reflexivity|]. split.
        * left. split; [|reflexivity]. unfold name_of. cbn [ip host]. rewrite identity_address, E3, E1. reflexivity.
        * right. auto.
    - injection Elook as <- <- <-. rewrite !orb_false_iff in Eask. destruct Eask as ((E1 & E2) & E3).
      apply Z.leb_gt in E3. assert (Hn : host s <> []) by (destruct (host s); congruence).
      split; [assumption|]. split; [assumption|]. split; [reflexivity|]. split; [right; auto|right; auto]. }
  destruct Spec as (S1 & S2 & S3 & S4 & S5).
  set (create := ((settings s <? my_settings c) || changed)%bool) in *.
  rewrite Hto, Hw in E.
  assert (F : f' = write true f1 (token s1) now /\ host s' = host s1 /\ ip s' = ip s1 /\ token s' = token s1 /\
              t_update s' = now /\ t_ip s' = t_ip s1 /\ t_clean s' = t_clean s1).
  { destruct (negb create && true && here f1 (token s1))%bool; injection E as <- <-; cbn; auto 10. }
  destruct F as (-> & F1 & F2 & F3 & F4 & F5 & F6).
  assert (Nm : name_of s' = name_of s1) by (unfold name_of; rewrite F1, F2; reflexivity).
  assert (Tp : token_path root s' = token_path root s1) by (rewrite !token_path_name, Nm; reflexivity).
  split; [congruence|]. split; [congruence|]. split; [assumption|]. split; [congruence|]. split.
  - rewrite Nm, F5. exact S4.
  - intro x. rewrite in_write, F3. destruct S5 as [(_ & ->)|(_ & -> & E1)].
    + rewrite in_remove. tauto.
    + rewrite E1. tauto.
Qed.

(** The whole call. *)
Lemma call_true now c s f s' f' :
  set_availability root now c s f = (s', f') -> want c = true -> served c -> (host s = [] -> ip s = []) ->
  avail s' = true /\ token s' = token_path root s' /\
  t_clean s' = (if between_cleans <=? now - t_clean s then now else t_clean s) /\
  (let kept := fun x : str * Z => between_cleans <= now - t_clean s -> now - snd x <= clean_older in
   (now - t_update s < between_updates /\ name_of s' = name_of s /\ host s' = host s /\ ip s' = ip s /\
    t_update s' = t_update s /\ t_ip s' = t_ip s /\ (forall x, In x f' <-> In x f /\ kept x)) \/
   (between_updates <= now - t_update s /\ host s' <> [] /\ t_update s' = now /\
    ((name_of s' = identity c /\ t_ip s' = now) \/
     (name_of s' = name_of s /\ t_ip s' = t_ip s /\ host s <> [] /\ now - t_ip s < between_lookups)) /\
    (forall x, In x f' <-> x = (root ++ name_of s', now) \/
       (In x f /\ fst x <> root ++ name_of s' /\ fst x <> root ++ name_of s /\ kept x)))).
Proof.
  intros E Hw Hs Hip. unfold set_availability in E. rewrite Hw in E.
  destruct (publish root now c (set_token root s) f) as (s1 & f1) eqn:Ep.
  pose proof (clean_fields _ _ _ _ _ _ E) as (C1 & C2 & C3 & C4 & C5 & C6 & C7 & C8).
  destruct Hs as (Hr & Hrest). pose proof Hrest as (_ & _ & Hl & _).
  pose proof (fun x => clean_in _ _ _ _ _ _ x E Hl Hr) as Cin.
  cbn [avail host domain ip token t_update t_ip t_clean] in C1, C2, C3, C4, C5, C6, C7, C8, Cin.
  destruct (Z_lt_le_dec (now - t_update s) between_updates) as [Hlt|Hge].
  - unfold publish in Ep. cbn [set_token t_update] in Ep.
    replace (between_updates <=? now - t_update s) with false in Ep by (symmetry; apply Z.leb_gt; assumption).
    injection Ep as <- <-. cbn [set_token avail host domain ip token t_update t_ip t_clean] in *.
    assert (Nm : name_of s' = name_of s) by (unfold name_of; rewrite C2, C4; reflexivity).
    split; [assumption|]. split; [rewrite C5, !token_path_name, Nm; reflexivity|]. split; [assumption|].
    left. repeat (split; [assumption|]). intro x. apply Cin.
  - pose proof (publish_spec now c (set_token root s) f s1 f1 Ep eq_refl (conj Hr Hrest) Hip Hge) as (P1 & P2 & P3 & P4 & P5 & P6).
    change (t_clean (set_token root s)) with (t_clean s) in P4. change (t_ip (set_token root s)) with (t_ip s) in P5.
    change (host (set_token root s)) with (host s) in P5. change (name_of (set_token root s)) with (name_of s) in P5.
    change (token (set_token root s)) with (root ++ name_of s) in P6.
    assert (Nm : name_of s' = name_of s1) by (unfold name_of; rewrite C2, C4; reflexivity).
    rewrite token_path_name in P2.
    split; [assumption|]. split; [rewrite C5, token_path_name, Nm; assumption|]. split; [rewrite C8, P4; reflexivity|].
    right. split; [assumption|]. split; [rewrite C2; assumption|]. split; [rewrite C6; assumption|]. split.
    { rewrite Nm, C7. exact P5. }
    intro x. rewrite (Cin x), (P6 x), P4, P2, Nm. split.
    + intros ([->|(X1 & X2 & X3)] & K); [left; reflexivity|right; auto].
    + intros [->|(X1 & X2 & X3 & X4)]; (split; [auto|]); [|assumption].
      intros _. cbn [snd]. unfold clean_older. lia.
Qed.

Lemma call_false now c s f s' f' :
  set_availability root now c s f = (s', f') -> want c = false -> served c ->
  avail s' = false /\ token s' = token_path root s' /\ host s' = host s /\ ip s' = ip s /\ t_ip s' = t_ip s /\
  t_update s' = (if avail s then now else t_update s) /\
  t_clean s' = (if between_cleans <=? now - t_clean s then now else t_clean s) /\
  (forall x, In x f' <-> In x f /\ (avail s = true -> fst x <> root ++ name_of s) /\
                         (between_cleans <= now - t_clean s -> now - snd x <= clean_older)).
Proof.
  intros E Hw (Hr & Hto & Hwr & Hl & Hh). unfold set_availability in E. rewrite Hw in E. unfold withdraw in E.
  rewrite Hr in E. change (avail (set_token root s)) with (avail s) in E.
  destruct (avail s) eqn:Ea;
    pose proof (clean_fields _ _ _ _ _ _ E) as (C1 & C2 & C3 & C4 & C5 & C6 & C7 & C8);
    pose proof (fun x => clean_in _ _ _ _ _ _ x E Hl Hr) as Cin;
    cbn [set_token avail host domain ip token t_update t_ip t_clean] in C1, C2, C3, C4, C5, C6, C7, C8, Cin;
    (assert (Nm : name_of s' = name_of s) by (unfold name_of; rewrite C2, C4; reflexivity));
    (split; [assumption|]); (split; [rewrite C5, !token_path_name, Nm; reflexivity|]);
    repeat (split; [assumption|]); intro x; rewrite (Cin x).
  - rewrite in_remove, token_path_name. tauto.
  - intuition congruence.
Qed.
End Root.
