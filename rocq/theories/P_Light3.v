(** The search ends; it does not depend on other compilations; the key. *)
From Coq Require Import String List Arith NArith Bool Ascii Lia.
From Verif Require Import M_Path.
From Verif Require M_Tok S_Tok P_Tok P_Tok5.
From Verif Require Import M_Light S_Light P_Light P_Light2.
Import ListNotations.
Import M_Tok(res, Done, Fail, NoFuel, bind, lookup).
Import P_Tok5(lookup_none, lookup_in, lookup_app).
Open Scope char_scope.
Open Scope nat_scope.

Section Top.
Variables (w : world) (o : others) (rel : bool) (paths : list str).

(** * What is included first: the stack is empty *)
Lemma process_top fuel n st st' : fine w st -> stack st = [] -> process fuel w o rel paths n Quote st = Done st' ->
  (starts ["/"] n -> there w n -> In n (all st')) /\ (~ starts ["/"] n -> forall g, first_of w (from_paths w paths n) g -> In g (all st')).
Proof.
  destruct fuel as [|fuel]; [discriminate|]. intros F Es. cbn [process]. unfold process_body. destruct (full n) eqn:Fu.
  - apply full_iff in Fu. rewrite Es. cbn [mem M_Tok.among existsb]. intro E. destruct (exists_all w o rel st n) as (Ea & _ & Ed).
    destruct (visit_post w paths _ (Found n) st (file_exists w o rel st n) st' (process_good w o rel paths fuel) F (exists_grows w o rel st n) Ea Ed E) as (_ & V).
    split; [auto|contradiction].
  - apply full_false in Fu. unfold from_stack. rewrite Es. cbn [map search]. destruct (search w o rel st (from_paths w paths n)) as [x st1] eqn:E1. intro Ev.
    destruct (search_visit w o rel paths _ _ _ _ _ _ (process_good w o rel paths fuel) F E1 Ev) as (_ & _ & V). split; [contradiction|auto].
Qed.
Lemma each_top fuel : forall l st st', fine w st -> stack st = [] -> each (process fuel w o rel paths) (map (fun n => (n, Quote)) l) st = Done st' ->
  post w paths st st' /\ forall n, In n l -> (starts ["/"] n -> there w n -> In n (all st')) /\ (~ starts ["/"] n -> forall g, first_of w (from_paths w paths n) g -> In g (all st')).
Proof.
  induction l as [|n l IH]; intros st st' F Es; cbn [map each].
  - intro E. injection E as <-. split; [now apply post_refl|]. intros n [].
  - unfold bind. destruct (process fuel w o rel paths n Quote st) as [st1| |] eqn:E1; try discriminate. intro E.
    destruct (process_good w o rel paths fuel n Quote st st1 F) as (P1 & _); [discriminate|exact E1|]. pose proof P1 as (G1 & F1 & _).
    destruct (IH st1 st' F1) as (P2 & T2); [destruct G1 as (_ & -> & _); exact Es|exact E|]. split; [now apply post_trans with st1|].
    intros m [<-|I]; [|now apply T2]. destruct (process_top fuel n st st1 F Es E1) as (T1 & T1'). pose proof (grows_incl _ _ (proj1 P2)) as Ic.
    split; [intros; apply Ic; now apply T1|intros; apply Ic; now apply T1'].
Qed.

(** * The end *)
Section Ends.
Variable fs : list str.
Hypothesis Fs : forall f, there w f -> In f fs.
Definition free (a : list str) : nat := length (filter (fun f => negb (mem f a)) fs).
Lemma free_le a b : incl a b -> free b <= free a.
Proof.
  intro I. unfold free. clear Fs. induction fs as [|f l IH]; cbn [filter]; [lia|]. destruct (mem f b) eqn:Mb; destruct (mem f a) eqn:Ma; cbn [negb length]; try lia.
  apply mem_in in Ma. apply I in Ma. apply mem_in in Ma. congruence.
Qed.
Lemma free_lt a g : there w g -> ~ In g a -> free (a ++ [g]) < free a.
Proof.
  intros T N. apply Fs in T. unfold free. clear Fs. induction fs as [|f l IH]; [destruct T|].
  assert (Le : length (filter (fun f => negb (mem f (a ++ [g]))) l) <= length (filter (fun f => negb (mem f a)) l)).
  { clear. induction l as [|f l IH]; cbn [filter]; [lia|]. destruct (mem f (a ++ [g])) eqn:Mb; destruct (mem f a) eqn:Ma; cbn [negb length]; try lia.
    apply mem_in in Ma. apply mem_out in Mb. exfalso. apply Mb. apply in_or_app. now left. }
  cbn [filter]. destruct T as [->|T].
  - assert (M1 : mem g (a ++ [g]) = true) by (apply mem_in, in_or_app; right; now left). assert (M2 : mem g a = false) by now apply mem_out. rewrite M1, M2. cbn [negb length]. lia.
  - specialize (IH T). destruct (mem f (a ++ [g])) eqn:Mb; destruct (mem f a) eqn:Ma; cbn [negb length]; try lia.
    apply mem_in in Ma. apply mem_out in Mb. exfalso. apply Mb. apply in_or_app. now left.
Qed.

Definition need (t : itype) : nat := match t with Macro => 2 | _ => 1 end.
Definition ends_rec (rec : str -> itype -> state -> res state) (k : nat) : Prop :=
  forall n t st, fine w st -> (t = Macro -> full n = false) -> 2 * free (all st) + need t <= k -> exists st', rec n t st = Done st'.
Lemma each_ends rec k : good_rec w paths rec -> ends_rec rec k -> forall l st, fine w st -> (forall n t, In (n, t) l -> t = Macro -> full n = false) ->
  2 * free (all st) + 2 <= k -> exists st', each rec l st = Done st'.
Proof.
  intros R H. induction l as [|[n t] l IH]; intros st F Fl K; cbn [each]; [now eexists|].
  destruct (H n t st F (Fl n t (or_introl eq_refl))) as (st1 & E1); [destruct t; cbn [need]; lia|]. unfold bind. rewrite E1.
  destruct (R n t st st1 F (Fl n t (or_introl eq_refl)) E1) as ((G1 & F1 & _) & _). apply (IH st1 F1); [intros n' t' I; apply Fl; now right|].
  pose proof (free_le _ _ (grows_incl _ _ G1)). lia.
Qed.
Lemma push_fine g st st1 : fine w st -> stack st1 = stack st -> all st1 = all st -> defs st1 = defs st ++ defines_of (events w g) -> there w g -> ~ In g (all st) -> fine w (push g st1).
Proof.
  intros F Gs A D X M. constructor; cbn [push all stack defs].
  - rewrite Gs, A. intros y [<-|I]; apply in_or_app; [right; now left|left; now apply (f_stack w st F)].
  - intros y I. apply in_app_or in I as [I|[<-|[]]]; [|exact X]. rewrite A in I. now apply (f_there w st F).
  - apply NoDup_app_iff_2; rewrite A; [apply F|exact M].
  - intros m y. rewrite D, A, in_app_iff, (f_defs w st F). split.
    + intros [(f & I & Q)|Q]; [exists f; split; [apply in_or_app; now left|exact Q]|exists g; split; [apply in_or_app; right; now left|exact Q]].
    + intros (f & I & Q). apply in_app_or in I as [I|[<-|[]]]; [left; now exists f|now right].
Qed.
Lemma visit_ends rec k x st st1 : good_rec w paths rec -> ends_rec rec k -> fine w st -> grows st st1 -> all st1 = all st ->
  defs st1 = defs st ++ (match x with Found g => defines_of (events w g) | _ => [] end) -> 2 * free (all st) <= k -> exists st', visit rec w (x, st1) = Done st'.
Proof.
  intros R H F G A D K. destruct x as [| |g]; cbn [visit]; try now eexists. destruct (exists_ w g) eqn:X; cbn [negb orb]; [|now eexists].
  destruct (mem g (all st1)) eqn:M; [now eexists|]. apply there_iff in X. apply mem_out in M. rewrite A in M. pose proof G as (_ & Gs & _).
  pose proof (push_fine g st st1 F Gs A D X M) as F2. pose proof (free_lt (all st) g X M) as Lt.
  destruct (each_ends rec k R H (includes_of (events w g)) (push g st1) F2) as (st2 & E2).
  - intros n t I ->. now apply include_macro in I.
  - cbn [push all]. rewrite A. lia.
  - unfold bind. rewrite E2. now eexists.
Qed.
Lemma process_ends : forall fuel, ends_rec (process fuel w o rel paths) fuel.
Proof.
  induction fuel as [|fuel IH]; intros n t st F Fm K; [destruct t; cbn [need] in K; lia|]. cbn [process]. unfold process_body. pose proof (process_good w o rel paths fuel) as R.
  assert (Sv : forall l st0, fine w st0 -> all st0 = all st -> t <> Macro -> exists st', visit (process fuel w o rel paths) w (search w o rel st0 l) = Done st').
  { intros l st0 F0 A0 T. destruct (search w o rel st0 l) as [x st1] eqn:E. destruct (search_spec w o rel l st0 x st1 F0 E) as (_ & G & A & D & _).
    apply (visit_ends _ fuel x st0 st1 R IH F0 G A D). rewrite A0. destruct t; cbn [need] in K; lia. }
  destruct (full n) eqn:Fu.
  - assert (T : t <> Macro) by (intro Q; specialize (Fm Q); congruence). destruct (mem n (stack st)); [now eexists|]. destruct (exists_all w o rel st n) as (Ea & _ & Ed).
    apply (visit_ends _ fuel (Found n) st _ R IH F (exists_grows w o rel st n) Ea Ed). destruct t; cbn [need] in K; lia.
  - destruct t.
    + now apply Sv.
    + pose proof (Sv (from_stack w st n) st F eq_refl ltac:(discriminate)) as S1. destruct (search w o rel st (from_stack w st n)) as [x st1] eqn:E.
      destruct x; [|exact S1|exact S1]. destruct (search_spec w o rel _ st _ st1 F E) as (_ & G & A & D & _). rewrite app_nil_r in D. pose proof G as (_ & Gs & _).
      apply Sv; [constructor; rewrite ?Gs, ?A, ?D; apply F|exact A|discriminate].
    + destruct (lookup (defs st) n) as [[n' t']|] eqn:Lk.
      * apply lookup_in in Lk. apply (f_defs w st F) in Lk as (f0 & I0 & D0). pose proof (define_type _ _ _ _ _ D0) as T'. apply IH; [exact F|contradiction|].
        destruct t'; cbn [need] in *; [lia|lia|contradiction].
      * destruct (existsb _ (all st)); now eexists.
Qed.
Lemma top_ends fuel : 2 * length fs + 1 <= fuel -> forall l st, fine w st -> exists st', each (process fuel w o rel paths) (map (fun n => (n, Quote)) l) st = Done st'.
Proof.
  intro K. assert (Fr : forall a, free a <= length fs) by (intro a; unfold free; clear; induction fs as [|f l IH]; cbn [filter]; [lia|]; destruct (negb (mem f a)); cbn [length]; lia).
  induction l as [|n l IH]; intros st F; cbn [map each]; [now eexists|].
  destruct (process_ends fuel n Quote st F) as (st1 & E1); [discriminate|specialize (Fr (all st)); cbn [need]; lia|]. unfold bind. rewrite E1. apply IH.
  destruct (process_good w o rel paths fuel n Quote st st1 F) as ((_ & F1 & _) & _); [discriminate|exact E1|exact F1].
Qed.
End Ends.
End Top.

(** * Other compilations *)
Section Others.
Variables (w : world) (rel : bool) (paths : list str).
Hypothesis Calm : forall f, bad w f = false.
Definition told (o : others) : Prop := rel = true -> forall n, o n <> Some false.
Record knows (st : state) : Prop := {
  k_all : forall f, In f (all st) -> lookup (known st) f <> None;
  k_set : rel = true -> forall f b, In (f, b) (known st) -> b = true }.
Definition sim (a b : state) : Prop := all a = all b /\ stack a = stack b /\ defs a = defs b /\ errs a = errs b /\ knows a /\ knows b.
Definition rsim (x y : res state) : Prop := match x, y with Done a, Done b => sim a b | NoFuel, NoFuel => True | Fail, Fail => True | _, _ => False end.

Lemma known_exists o st f : lookup (known (file_exists w o rel st f)) f <> None.
Proof.
  unfold file_exists. destruct (lookup (known st) f) eqn:E; [cbn [known]; congruence|].
  assert (H : forall b, lookup (known st ++ [(f, b)]) f <> None) by (intros b Q; rewrite lookup_none, map_app, in_app_iff in Q; cbn in Q; tauto).
  destruct (o (calls st)); cbn [known]; apply H.
Qed.
Lemma known_keep o st f g : lookup (known st) g <> None -> lookup (known (file_exists w o rel st f)) g <> None.
Proof.
  intro H. assert (H' : forall b, lookup (known st ++ [(f, b)]) g <> None).
  { intros b Q. rewrite lookup_none in Q. apply H. rewrite lookup_none. intro I. apply Q. rewrite map_app, in_app_iff. now left. }
  unfold file_exists. destruct (lookup (known st) f); [exact H|]. destruct (o (calls st)); apply H'.
Qed.
Lemma exists_knows o st f : told o -> knows st -> knows (file_exists w o rel st f).
Proof.
  intros T K. constructor.
  - intros g I. apply known_keep. destruct (exists_all w o rel st f) as (Ea & _). rewrite Ea in I. now apply (k_all st K).
  - intros R g b I. unfold file_exists in I. destruct (lookup (known st) f); [now apply (k_set st K R) in I|].
    destruct (o (calls st)) as [c|] eqn:O1; cbn [known] in I; apply in_app_or in I as [I|[I|[]]]; try exact (k_set st K R _ _ I).
    + injection I as <- <-. destruct c; [reflexivity|]. now destruct (T R (calls st)).
    + injection I as <- <-. exact R.
Qed.
Lemma exists_sim o o' a b f : told o -> told o' -> sim a b -> sim (file_exists w o rel a f) (file_exists w o' rel b f).
Proof.
  intros T T' (A & S & D & E & Ka & Kb). destruct (exists_all w o rel a f) as (A1 & S1 & D1), (exists_all w o' rel b f) as (A2 & S2 & D2).
  assert (Er : forall o st, errs (file_exists w o rel st f) = errs st).
  { intros x st. unfold file_exists. destruct (lookup (known st) f); [reflexivity|]. destruct (x (calls st)); [reflexivity|]. cbn [errs]. now rewrite Calm, orb_false_r. }
  split; [congruence|]. split; [congruence|]. split; [congruence|]. split; [now rewrite !Er|]. split; now apply exists_knows.
Qed.
Lemma search_sim o o' : told o -> told o' -> forall l a b, sim a b -> fst (search w o rel a l) = fst (search w o' rel b l) /\ sim (snd (search w o rel a l)) (snd (search w o' rel b l)) /\
  (forall g, fst (search w o rel a l) = Found g -> lookup (known (snd (search w o rel a l))) g <> None /\ lookup (known (snd (search w o' rel b l))) g <> None).
Proof.
  intros T T'. induction l as [|p l IH]; intros a b H; cbn [search]; [split; [reflexivity|split; [exact H|discriminate]]|].
  pose proof H as (A & S & _). rewrite S. destruct (mem p (stack b)); [split; [reflexivity|split; [exact H|discriminate]]|]. pose proof (exists_sim o o' a b p T T' H) as H'.
  destruct (exists_ w p); [|now apply IH]. split; [reflexivity|]. split; [exact H'|]. intros g E. injection E as <-. split; apply known_exists.
Qed.
Lemma each_sim r r' : (forall n t a b, sim a b -> rsim (r n t a) (r' n t b)) -> forall l a b, sim a b -> rsim (each r l a) (each r' l b).
Proof.
  intros H. induction l as [|[n t] l IH]; intros a b S; cbn [each]; [exact S|]. specialize (H n t a b S). unfold bind. destruct (r n t a), (r' n t b); cbn [rsim] in *; try contradiction; try exact I. now apply IH.
Qed.
Lemma visit_sim r r' x a b : (forall n t a b, sim a b -> rsim (r n t a) (r' n t b)) -> sim a b ->
  (forall g, x = Found g -> lookup (known a) g <> None /\ lookup (known b) g <> None) -> rsim (visit r w (x, a)) (visit r' w (x, b)).
Proof.
  intros H S K. pose proof S as (A & St & D & E & Ka & Kb). destruct x as [| |g]; cbn [visit]; try exact S. rewrite A. destruct (negb (exists_ w g) || mem g (all b)); [exact S|].
  destruct (K g eq_refl) as (K1 & K2).
  assert (S' : sim (push g a) (push g b)).
  { assert (Pk : forall st, knows st -> lookup (known st) g <> None -> knows (push g st)).
    { intros st Ks Kg. constructor; [|apply Ks]. cbn [push all known]. intros f I. apply in_app_or in I as [I|[<-|[]]]; [now apply (k_all st Ks)|exact Kg]. }
    repeat split; cbn [push all stack defs errs]; try congruence; now apply Pk. }
  pose proof (each_sim r r' H (includes_of (events w g)) _ _ S') as Q. unfold bind. destruct (each r _ _) as [a'| |], (each r' _ _) as [b'| |]; cbn [rsim] in *; try contradiction; try exact I.
  destruct Q as (A' & St' & D' & E' & Ka' & Kb'). repeat split; cbn [pop all stack defs errs known]; try congruence; try apply Ka'; apply Kb'.
Qed.
Lemma process_sim o o' : told o -> told o' -> forall fuel n t a b, sim a b -> rsim (process fuel w o rel paths n t a) (process fuel w o' rel paths n t b).
Proof.
  intros T T'. induction fuel as [|fuel IH]; intros n t a b S; [exact I|]. cbn [process]. unfold process_body. pose proof S as (A & St & D & E & Ka & Kb).
  assert (Sv : forall l a b, sim a b -> rsim (visit (process fuel w o rel paths) w (search w o rel a l)) (visit (process fuel w o' rel paths) w (search w o' rel b l))).
  { intros l a1 b1 S1. destruct (search_sim o o' T T' l a1 b1 S1) as (Q1 & Q2 & Q3). destruct (search w o rel a1 l) as [x a'], (search w o' rel b1 l) as [y b']. cbn [fst snd] in *. subst y. now apply visit_sim. }
  destruct (full n).
  - rewrite St. destruct (mem n (stack b)); [exact S|]. apply visit_sim; [exact IH|now apply exists_sim|]. intros g Q. injection Q as <-. split; apply known_exists.
  - destruct t.
    + unfold from_paths. now apply Sv.
    + assert (Fs : from_stack w a n = from_stack w b n) by (unfold from_stack; now rewrite St). rewrite Fs.
      destruct (search_sim o o' T T' (from_stack w b n) a b S) as (Q1 & Q2 & Q3). destruct (search w o rel a (from_stack w b n)) as [x a'], (search w o' rel b (from_stack w b n)) as [y b']. cbn [fst snd] in *. subst y.
      destruct x; [now apply Sv|now apply visit_sim|now apply visit_sim].
    + rewrite D, A. destruct (lookup (defs b) n) as [[n' t']|]; [now apply IH|]. destruct (existsb _ (all b)); [|exact S].
      repeat split; cbn [add_error all stack defs errs known]; try congruence; try apply Ka; apply Kb.
Qed.
Lemma finish_sim a b : sim a b -> finish w rel a = finish w rel b.
Proof.
  intros (A & _ & _ & E & Ka & Kb). unfold finish. rewrite A, E. destruct (all b) as [|x l] eqn:Ab; [reflexivity|]. rewrite <- Ab. destruct (errs b); [reflexivity|].
  assert (N : forall st, knows st -> all st = all b -> rel && existsb (fun f => match lookup (known st) f with Some b => negb b | None => true end) (all b) = false).
  { intros st K As. destruct rel eqn:R; [|reflexivity]. cbn [andb]. apply not_true_iff_false. intro Q. apply existsb_exists in Q as (f & If & Q). rewrite <- As in If. apply (k_all st K) in If.
    destruct (lookup (known st) f) as [c|] eqn:Lk; [|congruence]. apply lookup_in in Lk. apply (k_set st K R) in Lk. subst c. discriminate. }
  rewrite (N a Ka) by congruence. now rewrite (N b Kb eq_refl).
Qed.
Lemma light_sim o o' : told o -> told o' -> forall fuel forced root, light_hash fuel w o rel paths forced root = light_hash fuel w o' rel paths forced root.
Proof.
  intros T T' fuel forced root. unfold light_hash.
  assert (S0 : sim start start) by (repeat split; cbn; easy).
  pose proof (each_sim _ _ (fun n t a b S => process_sim o o' T T' fuel n t a b S) (map (fun n => (n, Quote)) (forced ++ [root])) start start S0) as Q.
  unfold bind. destruct (each _ _ start) as [a| |], (each (process fuel w o' rel paths) _ start) as [b| |]; cbn [rsim] in Q; try contradiction; try reflexivity.
  now rewrite (finish_sim a b Q).
Qed.
End Others.

(** * The key *)
Lemma finish_key w rel st k l : finish w rel st = Key k l -> l = all st /\ errs st = false /\ k = hash w (flat_map (fun f => [name_hash w rel f; content_hash w f]) (all st)).
Proof.
  unfold finish. destruct (all st) as [|x y] eqn:A; [discriminate|]. rewrite <- A. destruct (errs st); [discriminate|]. destruct (rel && _); [discriminate|]. intro E. injection E as <- <-. now rewrite A.
Qed.
Lemma key_state fuel w o rel paths forced root k l : light_hash fuel w o rel paths forced root = Done (Key k l) ->
  exists st, each (process fuel w o rel paths) (map (fun n => (n, Quote)) (forced ++ [root])) start = Done st /\ post w paths start st /\ l = all st /\ errs st = false /\
  k = hash w (flat_map (fun f => [name_hash w rel f; content_hash w f]) l).
Proof.
  unfold light_hash, bind. destruct (each _ _ start) as [st| |] eqn:E; try discriminate. intro Q. injection Q as Q. apply finish_key in Q as (-> & Er & ->).
  exists st. split; [reflexivity|]. split; [|repeat split; exact Er]. eapply each_top; [apply start_fine|reflexivity|exact E].
Qed.
Lemma pairs_eq {A} (f g f' g' : A -> N) : forall l l', flat_map (fun x => [f x; g x]) l = flat_map (fun x => [f' x; g' x]) l' -> map f l = map f' l' /\ map g l = map g' l'.
Proof.
  induction l as [|x l IH]; intros [|y l']; cbn; try discriminate; [auto|]. intro E. injection E as E1 E2 E. apply IH in E as (F & G). now rewrite E1, E2, F, G.
Qed.

(** * More fuel does not matter *)
Section More.
Variables (w : world) (o : others) (rel : bool) (paths : list str).
Definition below (r r' : str -> itype -> state -> res state) : Prop := forall n t st x, r n t st = Done x -> r' n t st = Done x.
Lemma each_more r r' : below r r' -> forall l st x, each r l st = Done x -> each r' l st = Done x.
Proof.
  intro B. induction l as [|[n t] l IH]; intros st x; cbn [each]; [auto|]. unfold bind. destruct (r n t st) as [y| |] eqn:E; try discriminate. rewrite (B _ _ _ _ E). apply IH.
Qed.
Lemma visit_more r r' : below r r' -> forall y x, visit r w y = Done x -> visit r' w y = Done x.
Proof.
  intros B [[| |g] st] x; cbn [visit]; auto. destruct (_ || _); auto. unfold bind. destruct (each r _ _) as [z| |] eqn:E; try discriminate. now rewrite (each_more r r' B _ _ _ E).
Qed.
Lemma process_more : forall fuel, below (process fuel w o rel paths) (process (S fuel) w o rel paths).
Proof.
  induction fuel as [|fuel IH]; intros n t st x; [discriminate|]. intro E. cbn [process] in E. change (process_body (process (S fuel) w o rel paths) w o rel paths n t st = Done x).
  unfold process_body in *. destruct (full n); [now apply (visit_more _ _ IH)|]. destruct t.
  - now apply (visit_more _ _ IH).
  - destruct (search w o rel st (from_stack w st n)) as [[| |g] st1]; now apply (visit_more _ _ IH).
  - destruct (lookup (defs st) n) as [[n' t']|]; [now apply IH|exact E].
Qed.
Lemma light_more forced root : forall fuel fuel' r, fuel <= fuel' -> light_hash fuel w o rel paths forced root = Done r -> light_hash fuel' w o rel paths forced root = Done r.
Proof.
  intros fuel fuel' r H E. induction H as [|fuel' _ IH]; [exact E|]. unfold light_hash, bind in *. destruct (each (process fuel' w o rel paths) _ start) as [y| |] eqn:Q; try discriminate.
  now rewrite (each_more _ _ (process_more fuel') _ _ _ Q).
Qed.
End More.
