(** C99: what Copy() copies, and where to. *)
From Coq Require Import String Ascii List Arith Bool Lia.
From Verif Require Import M_Path M_Names M_Dir M_Drv M_Xcode M_Copy S_Copy P_Drv P_Copy.
Import ListNotations.
Local Open Scope list_scope.

Section C99.
(** [clean] makes a name a full path; case makes no difference to it.  The nodes of the graph have different names. *)
Context (p : plat) (clean : str -> str) (clean_clean : forall s, clean (clean s) = clean s) (clean_lower : forall a b, lower a = lower b -> lower (clean a) = lower (clean b)).
Context (g : list node) (D : differ g).

Definition folder_below (base : str) : str := match base with [] => [] | _ => ensure_trailing p (clean base) end.
Lemma news_nil all : news clean g all []. Proof. now intros y []. Qed.
Lemma copy_is ss base dest out : copy p clean g ss base dest = Some out -> existsb (is_folder p) ss = false /\ exists g' fs, gather clean (g ++ []) ss = Some (g', fs) /\
  (is_folder p (clean dest) = true \/ length fs <= 1) /\ copies p clean (folder_below base) (clean dest) g' fs = Some out.
Proof.
  unfold copy. rewrite app_nil_r. destruct (existsb _ _); [discriminate|]. destruct (gather clean g ss) as [[g' fs]|]; [|discriminate]. destruct (is_folder p (clean dest)) eqn:F; cbn [negb]; rewrite ?andb_false_r, ?andb_true_r.
  - intros H. split; [easy|]. exists g', fs. auto.
  - destruct (1 <? length fs) eqn:N; [discriminate|]. apply Nat.ltb_ge in N. intros H. split; [easy|]. exists g', fs. auto.
Qed.

(** Every file that a source stands for is copied, and no other. *)
Theorem C99_copied ss base dest out : copy p clean g ss base dest = Some out ->
  (forall s x f, In s ss -> knows clean g s x -> stands_for f x -> In f (map fst out)) /\
  (forall s, In s ss -> external clean g s -> exists f, In f (map fst out) /\ lower f = lower (clean s)) /\
  (forall f, In f (map fst out) -> exists s, In s ss /\ ((exists x, knows clean g s x /\ stands_for f x) \/ (external clean g s /\ f = clean s))).
Proof.
  intros H. destruct (copy_is _ _ _ _ H) as (_&g'&fs&G&_&C). destruct (copies_ok p clean _ _ _ _ _ C) as (->&_&_). rewrite map_map. cbn [fst]. rewrite map_id.
  destruct (gather_ok clean clean_clean clean_lower g D ss ss [] g' fs (incl_refl _) (news_nil _) G) as (_&K1&K2&K3). split; [exact K2|]. split; [exact K3|].
  intros f I. destruct (K1 f I) as [(s&x&Q1&Q2)|(s&Q1&Q2&Q3&_)]; exists s; (split; [exact Q1|]); [left; now exists x|right; auto].
Qed.

(** No two are copied to the same place, and nothing in the graph is overwritten, in particular none of the sources. *)
Theorem C99_targets ss base dest out : copy p clean g ss base dest = Some out -> whole g ->
  NoDup (map (fun o => lower (snd o)) out) /\ forall f t, In (f, t) out -> unused g t /\ forall f', In f' (map fst out) -> lower t <> lower f'.
Proof.
  intros H W. destruct (copy_is _ _ _ _ H) as (_&g'&fs&G&_&C). destruct (copies_ok p clean _ _ _ _ _ C) as (E&N&K). split; [exact N|]. intros f t I. specialize (K _ I). cbn [snd] in K.
  destruct (gather_ok clean clean_clean clean_lower g D ss ss [] g' fs (incl_refl _) (news_nil _) G) as ((h'&->&_)&K1&_). split; [apply unused_app in K; tauto|].
  intros f' I'. rewrite E, map_map in I'. cbn [fst] in I'. rewrite map_id in I'. destruct (K1 f' I') as [(s&x&_&(J&_)&ST)|(s&_&_&_&J)].
  - destruct (W x f' J ST) as (y&Y1&<-). intros Q. apply (K y); [apply in_or_app; now left|now symmetry].
  - intros Q. apply (K _ J). now symmetry.
Qed.

(** A destination that is a folder gets the file under its path below the base path, if it is below it, or else under its file name; another one is the target of the only file. *)
Theorem C99_where ss base dest out : copy p clean g ss base dest = Some out ->
  if is_folder p (clean dest) then forall f t, In (f, t) out -> exists r, t = clean (clean dest ++ r) /\
    ((base <> [] /\ below p (folder_below base) f r) \/ ((base = [] \/ ~ exists r', below p (folder_below base) f r') /\ file_name p f r))
  else length out <= 1 /\ forall f t, In (f, t) out -> t = clean (clean dest).
Proof.
  intros H. destruct (copy_is _ _ _ _ H) as (_&g'&fs&G&L&C). destruct (copies_ok p clean _ _ _ _ _ C) as (->&_&_). unfold target. destruct (is_folder p (clean dest)) eqn:F.
  - intros f t I. apply in_map_iff in I. destruct I as (f0&E&_). injection E as -> <-. exists (part p (folder_below base) f). split; [easy|].
    assert (B : folder_below base = [] <-> base = []) by (unfold folder_below, ensure_trailing; destruct base as [|c b]; [easy|]; split; [|easy]; destruct (rev (clean (c :: b))) as [|x r] eqn:R; [intros Q; now apply app_eq_nil in Q|];
      destruct (Ascii.eqb x (native p)); [intros Q; rewrite Q in R; discriminate|]; destruct (Ascii.eqb x (other p)); intros Q; [cbn in Q|]; now apply app_eq_nil in Q).
    destruct (part_ok p (folder_below base) f) as [(N&Q)|([N|N]&Q)]; [left; split; [tauto|exact Q]|right; split; [tauto|exact Q]|right; split; [now right|exact Q]].
  - destruct L as [L|L]; [discriminate|]. split; [now rewrite map_length|]. intros f t I. apply in_map_iff in I. destruct I as (f0&E&_). now injection E as _ <-.
Qed.

(** Folders are not copied, nor is anything that is not a file. *)
Theorem C99_refused ss base dest : (exists s, In s ss /\ (is_folder p s = true \/ exists x, knows clean g s x /\ unsupported x)) -> copy p clean g ss base dest = None.
Proof.
  intros (s&I&Q). destruct (copy p clean g ss base dest) as [out|] eqn:H; [exfalso|easy]. destruct (copy_is _ _ _ _ H) as (F&g'&fs&G&_). destruct Q as [Q|(x&K&U)].
  - rewrite <- not_true_iff_false in F. apply F. apply existsb_exists. now exists s.
  - now apply (gather_files clean clean_clean clean_lower g D ss ss [] _ (incl_refl _) (news_nil _) G s x I K).
Qed.

(** It is not refused without need: files that differ, whose targets differ and are not in use, are copied in their order. *)
Theorem C99_made ss fs base dest : let t f := if is_folder p (clean dest) then clean dest ++ part p (folder_below base) f else clean dest in
  Forall2 (fun s f => knows clean g s (File f) \/ (external clean g s /\ f = clean s)) ss fs -> (forall s, In s ss -> is_folder p s = false) -> (is_folder p (clean dest) = true \/ length fs <= 1) ->
  NoDup (map lower fs) -> NoDup (map (fun f => lower (clean (t f))) fs) ->
  (forall f, In f fs -> external clean g (t f) /\ forall f', In f' fs -> lower (t f) <> lower f' /\ lower (clean (t f)) <> lower f') ->
  copy p clean g ss base dest = Some (map (fun f => (f, clean (t f))) fs).
Proof.
  intros t F NF L N NT X. unfold copy.
  assert (E : existsb (is_folder p) ss = false) by (apply not_true_iff_false; intros Q; apply existsb_exists in Q; destruct Q as (s&I&Q); rewrite (NF s I) in Q; discriminate). rewrite E.
  destruct (gather_made clean clean_clean clean_lower g D ss ss fs [] (incl_refl _) (news_nil _) F N) as (h'&G&H'); [easy|]. rewrite !app_nil_r in G. cbn [app] in G. rewrite G.
  assert (L' : (1 <? length fs) && negb (is_folder p (clean dest)) = false) by (destruct L as [->|L]; [apply andb_false_r|]; destruct (1 <? length fs) eqn:Q; [apply Nat.ltb_lt in Q; lia|easy]). rewrite L'.
  fold (folder_below base). refine (copies_made p clean clean_clean clean_lower (folder_below base) (clean dest) fs (g ++ h') _ NT).
  intros f I. destruct (X f I) as ((U1&U2)&Y). split; apply unused_app; (split; [assumption|]); intros y J; destruct (H' y J) as (f'&I'&->); cbn [name]; intros Q; apply (Y f') in I'; destruct I' as (Y1&Y2); [apply Y1|apply Y2]; now symmetry.
Qed.
End C99.

(** Names on Linux differ in more than case too: README and Readme of two directories cannot be copied into one. *)
Definition abs (s : str) : str := match s with "/"%char :: _ => s | _ => L "/w/" ++ s end.
Theorem C99_case_refuted : exists ss fs dest, length ss = 2 /\ NoDup fs /\ ss = fs /\ file_name posix (nth 0 fs []) (L "README") /\ file_name posix (nth 1 fs []) (L "Readme") /\ copy posix abs [] ss [] dest = None.
Proof.
  exists [L "/a/README"; L "/b/Readme"], [L "/a/README"; L "/b/Readme"], (L "/out/"). split; [easy|]. split; [|split; [easy|]].
  - constructor; [intros [Q|[]]; discriminate|]. constructor; [easy|constructor].
  - split; [|split; [|vm_compute; reflexivity]]; right; (split; [cbn; intuition discriminate|]); [now exists (L "/a")|now exists (L "/b")].
Qed.

Lemma abs_abs s : abs (abs s) = abs s.
Proof. destruct s as [|c r]; [reflexivity|]. cbn [abs]. destruct c as [[] [] [] [] [] [] [] []]; reflexivity. Qed.
Lemma lower_slash c : lower_char c = "/"%char -> c = "/"%char.
Proof. destruct c as [[] [] [] [] [] [] [] []]; vm_compute; congruence. Qed.
Lemma abs_lower a b : lower a = lower b -> lower (abs a) = lower (abs b).
Proof.
  assert (K : forall s, (exists r, s = "/"%char :: r /\ abs s = s) \/ ((forall r, s <> "/"%char :: r) /\ abs s = L "/w/" ++ s)).
  { intros [|c r]; [right; split; [intros r Q; discriminate|reflexivity]|]. destruct (ascii_dec c "/"%char) as [->|NE]; [left; now exists r|right]. split; [intros r' Q; congruence|]. cbn [abs]. destruct c as [[] [] [] [] [] [] [] []]; try reflexivity. now contradiction NE. }
  intros E. destruct (K a) as [(r&->&->)|(NA&->)], (K b) as [(r'&->&->)|(NB&->)]; [exact E| | |].
  - exfalso. destruct b as [|c b]; [discriminate|]. injection E as E1 E2. symmetry in E1. apply lower_slash in E1. subst c. now apply (NB b).
  - exfalso. destruct a as [|c a]; [discriminate|]. injection E as E1 E2. apply lower_slash in E1. subst c. now apply (NA a).
  - unfold lower in *. rewrite !map_app. now rewrite E.
Qed.
(** An alias for two files of the graph and an external file are copied into a folder; the alias keeps its paths below src. *)
Example C99_case : let lib := File (L "/w/src/a/lib.dll") in let exe := File (L "/w/src/b/app.exe") in let g := [lib; exe; Alias (L "Bins") [lib; exe]] in
  differ g /\ whole g /\ (forall s, abs (abs s) = abs s) /\ (forall a b, lower a = lower b -> lower (abs a) = lower (abs b)) /\
  copy posix abs g [L "bins"; L "doc/Readme.txt"] (L "src") (L "/out/") =
    Some [(L "/w/src/a/lib.dll", L "/out/a/lib.dll"); (L "/w/src/b/app.exe", L "/out/b/app.exe"); (L "/w/doc/Readme.txt", L "/out/Readme.txt")] /\
  copy posix abs g [L "bins"; L "doc/app.exe"] (L "src") (L "/out") = None /\ copy posix abs g [L "bins"] [] (L "/w/src/a/") = None.
Proof.
  intros lib exe g. split; [|split; [|split; [exact abs_abs|split; [exact abs_lower|vm_compute; repeat split]]]].
  - intros x y [<-|[<-|[<-|[]]]] [<-|[<-|[<-|[]]]] Q; try reflexivity; vm_compute in Q; discriminate Q.
  - intros x f I ST. assert (K : f = L "/w/src/a/lib.dll" \/ f = L "/w/src/b/app.exe").
    { destruct I as [<-|[<-|[<-|[]]]]; inversion ST as [|? ? y J ST']; subst; auto. destruct J as [<-|[<-|[]]]; inversion ST'; subst; auto. }
    destruct K as [->| ->]; [exists lib|exists exe]; (split; [|reflexivity]); [now left|right; now left].
Qed.

Print Assumptions C99_copied. Print Assumptions C99_targets. Print Assumptions C99_where. Print Assumptions C99_refused. Print Assumptions C99_made. Print Assumptions C99_case_refuted. Print Assumptions C99_case.
