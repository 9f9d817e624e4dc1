From Coq Require Import List Arith Bool Ascii Lia.
From Verif Require Import M_Path M_Names M_Glob S_Glob.
Import ListNotations.

Section M.
Context (norm : ascii -> ascii).
Definition same (a b : ascii) : Prop := norm a = norm b.
Notation glob := (glob same).
Notation seg := (seg norm).
Notation try := (try norm).
Notation match_from := (match_from norm).

Lemma glob_star_any x pat s : glob (star :: pat) s -> glob (star :: pat) (x ++ s).
Proof.
  intros H. inversion H; subst; try congruence.
  rewrite app_assoc. now apply glob_star.
Qed.
Lemma glob_star_star pat s : glob (star :: star :: pat) s <-> glob (star :: pat) s.
Proof.
  split; intros H.
  - inversion H; subst; try congruence. now apply glob_star_any.
  - change s with ([] ++ s). now apply glob_star.
Qed.
Lemma skip_stars_glob pat s : glob (star :: pat) s <-> glob (star :: skip_stars pat) s.
Proof.
  induction pat as [|c r IH]; cbn [skip_stars]; [tauto|].
  destruct (Ascii.eqb_spec c star) as [->|]; [|tauto]. rewrite glob_star_star. exact IH.
Qed.

(* one character of a segment *)
Definition ok1 (a b : ascii) : bool := Ascii.eqb (norm a) (norm b) || (Ascii.eqb b qmark && negb (Ascii.eqb a dot)).
Lemma glob_cons b pat a s : b <> star -> glob (b :: pat) (a :: s) <-> ok1 a b = true /\ glob pat s.
Proof.
  intros NB. unfold ok1. rewrite orb_true_iff, andb_true_iff, negb_true_iff, !Ascii.eqb_eq, Ascii.eqb_neq. split.
  - intros H. inversion H; subst; try (exfalso; now apply NB); auto.
  - intros [[H|[-> H]] G]; [now apply glob_char|now apply glob_any].
Qed.
Lemma glob_nil_r b pat : b <> star -> ~ glob (b :: pat) [].
Proof. intros NB H. inversion H; subst. now apply NB. Qed.

Lemma seg_spec : forall pat s,
  match seg pat s with
  | AtStar p' s' => exists c, pat = c ++ p' /\ (exists q, p' = star :: q) /\ ~ In star c /\ (exists pre, s = pre ++ s' /\ List.length pre = List.length c) /\
      (forall t, glob (c ++ t) s <-> glob t s')
  | AtEnd s' => ~ In star pat /\ (exists pre, s = pre ++ s' /\ List.length pre = List.length pat) /\ (forall t, glob (pat ++ t) s <-> glob t s')
  | OutOfText => forall pre s1, s = pre ++ s1 -> ~ glob pat s1
  | Mismatch => ~ glob pat s /\ s <> [] /\
       forall c p', pat = c ++ p' -> (p' = [] \/ exists q, p' = star :: q) -> ~ In star c -> forall t, ~ glob (c ++ t) s
  end.
Proof.
  induction pat as [|b pat IH]; intros s; cbn [M_Glob.seg].
  - split; [intros []|]. split; [exists []; auto|]. intros t. reflexivity.
  - destruct (Ascii.eqb_spec b star) as [->|NB].
    + exists []. split; auto. split; [eauto|]. split; [intros []|]. split; [exists []; auto|]. intros t. reflexivity.
    + destruct s as [|a s].
      * intros pre s1 E. symmetry in E. apply app_eq_nil in E. destruct E as [_ ->]. now apply glob_nil_r.
      * assert (C : (if Ascii.eqb (norm a) (norm b) then seg pat s else if Ascii.eqb b qmark && negb (Ascii.eqb a dot) then seg pat s else Mismatch)
                    = if ok1 a b then seg pat s else Mismatch).
        { unfold ok1. destruct (Ascii.eqb (norm a) (norm b)); cbn; auto. }
        rewrite C. destruct (ok1 a b) eqn:O.
        -- specialize (IH s). destruct (seg pat s) as [p' s'|s'| |].
           ++ destruct IH as (c&->&Q&N&(pre&->&L1)&H). exists (b :: c). split; auto. split; auto. split; [intros [?|?]; auto|].
              split; [exists (a :: pre); cbn; auto|]. intros t. cbn [app]. rewrite glob_cons by auto. rewrite O. rewrite H. tauto.
           ++ destruct IH as (N&(pre&->&L1)&H). split; [intros [?|?]; auto|]. split; [exists (a :: pre); cbn; auto|].
              intros t. cbn [app]. rewrite glob_cons by auto. rewrite O, H. tauto.
           ++ intros pre s1 E G. inversion G; subst; try (now apply NB).
              ** destruct pre as [|x pre]; cbn in E; injection E as ? E; subst.
                 --- now apply (IH [] s0).
                 --- apply (IH (pre ++ [c]) s0); [|auto]. now rewrite <- app_assoc.
              ** destruct pre as [|x pre]; cbn in E; injection E as ? E; subst.
                 --- now apply (IH [] s0).
                 --- apply (IH (pre ++ [c]) s0); [|auto]. now rewrite <- app_assoc.
           ++ destruct IH as (N1&N2&N3). split; [rewrite glob_cons by auto; tauto|]. split; [discriminate|].
              intros c p' E HP NS t G. destruct c as [|x c].
              ** cbn in E. subst p'. destruct HP as [HP|[q HP]]; [discriminate|]. injection HP as -> _. congruence.
              ** injection E as <- E. cbn [app] in G. apply glob_cons in G; auto. destruct G as [_ G].
                 apply (N3 c p' E HP) in G; auto. intros Q. apply NS. now right.
        -- split; [rewrite glob_cons by auto; rewrite O; intros [? ?]; discriminate|]. split; [discriminate|].
           intros c p' E HP NS t G. destruct c as [|x c].
           ++ cbn in E. subst p'. destruct HP as [HP|[q HP]]; [discriminate|]. injection HP as -> _. congruence.
           ++ injection E as <- E. cbn [app] in G. apply glob_cons in G; auto. destruct G as [G _]. congruence.
Qed.

(* a star-free chunk consumes exactly its length *)
Lemma glob_split c t s : ~ In star c -> glob (c ++ t) s -> exists pre s', s = pre ++ s' /\ List.length pre = List.length c /\ glob t s'.
Proof.
  revert s. induction c as [|b c IH]; intros s N G; [exists [], s; auto|].
  assert (NB : b <> star) by (intros ->; apply N; now left).
  destruct s as [|a s]; [now apply glob_nil_r in G|]. cbn [app] in G. apply glob_cons in G; auto. destruct G as [_ G].
  destruct (IH s) as (pre&s'&->&L1&G'); auto. { intros Q. apply N. now right. }
  exists (a :: pre), s'. cbn. auto.
Qed.

(* Splitting the pattern at its first star *)
Lemma first_star pat : exists c p', pat = c ++ p' /\ ~ In star c /\ (p' = [] \/ exists q, p' = star :: q).
Proof.
  induction pat as [|b pat (c&p'&->&N&H)]; [exists [], []; auto|].
  destruct (Ascii.eqb_spec b star) as [->|NB].
  - exists [], (star :: c ++ p'). split; auto. split; auto. right. eauto.
  - exists (b :: c), p'. split; auto. split; auto. intros [?|?]; auto.
Qed.

Lemma glob_star_cons pat s : glob (star :: pat) s <-> glob pat s \/ (exists a s', s = a :: s' /\ glob (star :: pat) s').
Proof.
  split.
  - intros H. inversion H; subst; try congruence. destruct text as [|a text]; auto. right. exists a, (text ++ s0). split; auto. now apply glob_star.
  - intros [H|(a&s'&->&H)]; [change s with ([] ++ s); now apply glob_star|]. change (a :: s') with ([a] ++ s'). now apply glob_star_any.
Qed.

Lemma app_suffix (a x b y : str) : a ++ x = b ++ y -> List.length b <= List.length a -> exists z, y = z ++ x.
Proof.
  revert a. induction b as [|c b IH]; intros a E H; [exists a; now symmetry|].
  destruct a as [|d a]; [cbn in H; lia|]. cbn in E, H. injection E as _ E. apply (IH a); auto. lia.
Qed.

(* retrying with a star *)
Lemma try_star : forall s pat,
  match try true pat s with
  | None => False
  | Some (inl b) => b = true <-> glob (star :: pat) s
  | Some (inr (p', s')) => (exists c, pat = c ++ p' /\ ~ In star c) /\ (exists q, p' = star :: q) /\ (glob p' s' <-> glob (star :: pat) s)
  end.
Proof.
  induction s as [|a s IH]; intros pat.
  - pose proof (seg_spec pat []) as S. unfold M_Glob.try. destruct (seg pat []) as [p' s'|[|x s']| |].
    + destruct S as (c&->&Q&N&(pre&E&L1)&H). split; [eauto|]. split; auto. symmetry in E. apply app_eq_nil in E. destruct E as [-> ->].
      rewrite <- H. split; intros G; [change (@nil ascii) with (@nil ascii ++ []); now apply glob_star|].
      apply glob_star_cons in G. destruct G as [G|(a&s'&E&_)]; [auto|discriminate].
    + destruct S as (_&_&H). split; auto. intros _. apply glob_star_cons. left. rewrite <- (app_nil_r pat). apply H. constructor.
    + destruct S as (_&(pre&E&_)&_). destruct pre; discriminate.
    + split; [discriminate|]. intros G. exfalso. apply glob_star_cons in G. destruct G as [G|(a&s'&E&_)]; [|discriminate]. now apply (S [] []) in G.
    + destruct S as (_&Q&_). congruence.
  - pose proof (seg_spec pat (a :: s)) as S. cbn [M_Glob.try].
    destruct (seg pat (a :: s)) as [p' s'|[|x s']| |].
    + destruct S as (c&EP&(q&->)&N&(pre&E&L1)&H). split; [eauto|]. split; [eauto|]. subst pat. split.
      * intros G. apply glob_star_cons. left. now apply H.
      * intros G. inversion G as [|text p0 s0 HG ET| |]; subst; try congruence.
        destruct (glob_split _ _ _ N HG) as (pre2&s2&->&L2&G2).
        assert (HE : (text ++ pre2) ++ s2 = pre ++ s') by (rewrite <- app_assoc; congruence).
        assert (QQ : exists z, s' = z ++ s2).
        { apply (app_suffix (text ++ pre2) s2 pre s'); auto. rewrite app_length. lia. }
        destruct QQ as (z&->). now apply glob_star_any.
    + destruct S as (_&_&H). split; auto. intros _. apply glob_star_cons. left. rewrite <- (app_nil_r pat). apply H. constructor.
    + destruct S as (N&_&H).
      assert (Z : glob (star :: pat) (a :: s) <-> glob (star :: pat) s).
      { rewrite glob_star_cons. split; [|eauto 6]. intros [G|(a'&s2&E&G)]; [|now injection E as <- <-].
        rewrite <- (app_nil_r pat) in G. apply H in G. inversion G. }
      specialize (IH pat). destruct (try true pat s) as [[b|[p2 s2]]|]; auto.
      * now rewrite Z.
      * now rewrite Z.
    + split; [discriminate|]. intros G. exfalso. inversion G as [|text p0 s0 HG ET| |]; subst; try congruence. now apply (S text s0) in HG.
    + destruct S as (N&_&_).
      assert (Z : glob (star :: pat) (a :: s) <-> glob (star :: pat) s).
      { rewrite glob_star_cons. split; [|eauto 6]. intros [G|(a'&s2&E&G)]; [tauto|now injection E as <- <-]. }
      specialize (IH pat). destruct (try true pat s) as [[b|[p2 s2]]|]; auto.
      * now rewrite Z.
      * now rewrite Z.
Qed.
Lemma try_nostar s pat : 
  match try false pat s with
  | None => False
  | Some (inl b) => b = true <-> glob pat s
  | Some (inr (p', s')) => (exists c, pat = c ++ p' /\ ~ In star c) /\ (exists q, p' = star :: q) /\ (glob p' s' <-> glob pat s)
  end.
Proof.
  pose proof (seg_spec pat s) as S. 
  assert (T : try false pat s = match seg pat s with AtStar p' s' => Some (inr (p', s')) | OutOfText => Some (inl false)
     | AtEnd [] => Some (inl true) | _ => Some (inl false) end).
  { destruct s; cbn [M_Glob.try]; destruct (seg pat _) as [|[|]| |]; reflexivity. }
  rewrite T. destruct (seg pat s) as [p' s'|[|x s']| |].
  - destruct S as (c&->&(q&->)&N&_&H). split; [eauto|]. split; [eauto|]. now rewrite H.
  - destruct S as (_&_&H). split; auto. intros _. rewrite <- (app_nil_r pat). apply H. constructor.
  - destruct S as (_&_&H). split; [discriminate|]. intros G. rewrite <- (app_nil_r pat) in G. apply H in G. inversion G.
  - split; [discriminate|]. intros G. exfalso. now apply (S [] s) in G.
  - split; [discriminate|]. intros G. exfalso. tauto.
Qed.

Lemma skip_len_stars pat : List.length (skip_stars pat) <= List.length pat.
Proof. induction pat as [|c r IH]; cbn; auto. destruct (Ascii.eqb c star); cbn; lia. Qed.

Lemma match_from_spec : forall f pat s, List.length pat < f -> 
  exists b, match_from f pat s = Some b /\ (b = true <-> glob pat s).
Proof.
  induction f as [|f IH]; intros pat s HL; [lia|]. cbn [M_Glob.match_from].
  destruct pat as [|c r].
  { pose proof (try_nostar s []) as T. cbn [skip_stars]. destruct (try false [] s) as [[b|[p' s']]|]; [eauto| |contradiction].
    destruct T as ((c&E&_)&(q&->)&_). symmetry in E. apply app_eq_nil in E. destruct E; discriminate. }
  destruct (Ascii.eqb_spec c star) as [->|NC].
  - cbn [skip_stars]. rewrite Ascii.eqb_refl.
    pose proof (try_star s (skip_stars r)) as T. pose proof (skip_len_stars r) as SL. cbn [List.length] in HL.
    destruct (try true (skip_stars r) s) as [[b|[p' s']]|]; [|destruct T as ((c&E&_)&(q&->)&T)|contradiction].
    + exists b. split; auto. now rewrite T, <- skip_stars_glob.
    + destruct (IH (star :: q) s') as (b&EB&HB).
      { rewrite E in SL. rewrite app_length in SL. lia. }
      exists b. split; auto. now rewrite HB, T, <- skip_stars_glob.
  - assert (SK : skip_stars (c :: r) = c :: r) by (cbn; destruct (Ascii.eqb_spec c star); congruence). rewrite SK.
    pose proof (try_nostar s (c :: r)) as T.
    destruct (try false (c :: r) s) as [[b|[p' s']]|]; [|destruct T as ((d&E&_)&(q&->)&T)|contradiction].
    + exists b. auto.
    + destruct (IH (star :: q) s') as (b&EB&HB).
      { destruct d as [|x d]; [cbn in E; injection E as -> ->; congruence|]. apply (f_equal (@List.length ascii)) in E. cbn [app List.length] in E, HL. rewrite app_length in E. cbn [List.length] in *. lia. }
      exists b. split; auto. now rewrite HB, T.
Qed.
End M.
