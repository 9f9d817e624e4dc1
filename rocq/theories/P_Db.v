From Coq Require Import List Arith Bool NArith ZArith Lia.
From Verif Require Import M_Bytes M_Stream P_Stream M_Codec P_Codec M_Conf P_Conf M_Db S_Db.
Import ListNotations.
Local Open Scope N_scope.

(** ** Readers that give back a renamed value *)
Lemma d_map {A B} (r : reader A) (k : A -> reader B) e x y : decodes r e x -> decodes (k x) [] y -> decodes (bind r k) e y.
Proof. intros C1 C2. rewrite <- (app_nil_r e). now apply (d_bind r k e [] x y). Qed.
Lemma d_u n x : x < 256 ^ N.of_nat n -> decodes (r_int n) (le_bytes n x) x.
Proof. intros H. exact (proj1 (c_int n x H)). Qed.
Lemma d_u8 x : x < 256 -> decodes (r_int 1) (le_bytes 1 x) x. Proof. intros. now apply d_u. Qed.
Lemma d_u32 x : x < 4294967296 -> decodes (r_int 4) (le_bytes 4 x) x. Proof. intros. now apply d_u. Qed.
Lemma d_u64 x : x < 18446744073709551616 -> decodes (r_int 8) (le_bytes 8 x) x. Proof. intros. now apply d_u. Qed.
Lemma d_str t : small t -> decodes r_str (wr_str t) t.
Proof. intros H. exact (proj1 (c_str t H)). Qed.
Lemma d_rep {A B} (r : reader B) (enc : A -> bytes) (h : A -> B) l :
  Forall (fun x => decodes r (enc x) (h x)) l -> decodes (r_rep (List.length l) r) (flat_map enc l) (map h l).
Proof. induction 1 as [|x l C F IH]; [apply d_ret|]. cbn [List.length r_rep flat_map map]. apply (d_bind _ _ _ _ _ _ C). apply (d_map _ _ _ _ _ IH). apply d_ret. Qed.
Lemma d_each {A B C} (r : A -> reader B) (enc : C -> bytes) (la : list A) (lb : list B) (lc : list C) :
  Forall2 (fun ab c => decodes (r (fst ab)) (enc c) (snd ab)) (combine la lb) lc -> List.length la = List.length lb -> decodes (r_each la r) (flat_map enc lc) lb.
Proof.
  revert lb lc. induction la as [|a la IH]; intros [|b lb] lc F L; cbn in L; try lia.
  - inversion F; subst. apply d_ret.
  - cbn [combine] in F. inversion F; subst. cbn [r_each flat_map]. apply (d_bind _ _ _ _ b _); [assumption|]. apply (d_map _ _ _ lb _); [apply IH; auto|apply d_ret].
Qed.
Lemma d_count {A B} (r : reader B) (enc : A -> bytes) (h : A -> B) l :
  small l -> Forall (fun x => decodes r (enc x) (h x)) l -> decodes (r_counted r) (count l ++ flat_map enc l) (map h l).
Proof.
  intros S F. unfold r_counted, count, u32s, u32. rewrite N.mod_small by exact S. apply (d_bind _ _ _ _ (N.of_nat (List.length l))); [now apply d_u32|].
  rewrite Nat2N.id. now apply d_rep.
Qed.
Lemma d_count_id {A} (r : reader A) (enc : A -> bytes) l :
  small l -> Forall (fun x => decodes r (enc x) x) l -> decodes (r_counted r) (count l ++ flat_map enc l) l.
Proof. intros S F. rewrite <- (map_id l) at 3. now apply d_count. Qed.
Lemma d_strs l : small l -> Forall small l -> decodes (r_counted r_str) (wr_strs l) l.
Proof. intros S F. apply (d_count_id r_str wr_str l S). revert F. apply Forall_impl. intros t. apply d_str. Qed.
Lemma d_bool b : decodes r_bool (wr_bool b) b.
Proof.
  intros s rest V. change (wr_bool b) with (le_bytes 1 (if b then 1 else 0)) in V || (destruct b; cbn in V).
  all: unfold r_bool.
  - destruct (d_u8 1 ltac:(lia) s rest V) as (s'&E&V'). rewrite E. exists s'. auto.
  - destruct (d_u8 0 ltac:(lia) s rest V) as (s'&E&V'). rewrite E. exists s'. auto.
Qed.
Lemma d_i32 z : (-2147483648 <= z < 2147483648)%Z -> decodes r_i32 (wr_i32 z) z.
Proof.
  intros B. unfold r_i32, wr_i32. pose proof (Z.mod_pos_bound z 4294967296 ltac:(lia)) as M.
  apply (d_map _ _ _ (Z.to_N (z mod 4294967296))); [apply d_u32; lia|].
  replace (if _ <? _ then _ else _) with z; [apply d_ret|].
  rewrite Z2N.id by lia. destruct (N.ltb_spec (Z.to_N (z mod 4294967296)) 2147483648) as [L|L].
  - destruct (Z_lt_le_dec z 0) as [Neg|Pos].
    + rewrite <- (Z.mod_unique z 4294967296 (-1) (z + 4294967296)) in L by lia. lia.
    + rewrite Z.mod_small by lia. reflexivity.
  - destruct (Z_lt_le_dec z 0) as [Neg|Pos].
    + rewrite <- (Z.mod_unique z 4294967296 (-1) (z + 4294967296)) by lia. lia.
    + rewrite Z.mod_small in L by lia. lia.
Qed.

(** ** Tags are indices *)
Lemma set_tags_other ps : forall i t q, ~ In q ps -> set_tags i ps t q = t q.
Proof.
  induction ps as [|p ps IH]; intros i t q H; [reflexivity|]. cbn [set_tags]. rewrite IH by (intros X; apply H; now right).
  destruct (N.eqb_spec q p); [subst; exfalso; apply H; now left|reflexivity].
Qed.
Lemma set_tags_in ps : forall i t k q, NoDup ps -> nth_error ps k = Some q -> set_tags i ps t q = u32 (i + N.of_nat k).
Proof.
  induction ps as [|p ps IH]; intros i t k q ND E; [destruct k; discriminate|]. inversion ND; subst. cbn [set_tags]. destruct k as [|k]; cbn in E.
  - injection E as ->. rewrite set_tags_other by auto. rewrite N.eqb_refl. f_equal. cbn. lia.
  - rewrite (IH (i + 1) _ k q) by auto. f_equal. lia.
Qed.

Section Schema.
Variable schema : N -> option rinfo.
Notation node := (node schema).
Notation graph := (graph schema).

Section Values.
Variables (ps ps' : list ptr) (tag : ptr -> N) (f : ptr -> ptr).
(** the tag of a node of the graph is its index, and [f] is the new address at that index *)
Hypothesis Htag : forall p, In p ps -> tag p < 4294967295 /\ nth_error ps' (N.to_nat (tag p)) = Some (f p).

Lemma d_at p : In p ps -> decodes (at_index ps' (tag p)) [] (f p).
Proof. intros H s rest V. exists s. unfold at_index. rewrite (proj2 (Htag p H)). auto. Qed.

Scheme ptype_mut := Induction for ptype Sort Prop with rinfo_mut := Induction for rinfo Sort Prop.
Lemma d_val_vals :
  (forall t v, fits_val ps t v -> decodes (r_val ps' t) (wr_val tag t v) (ren_val f t v)).
Proof.
  apply (ptype_mut (fun t => forall v, fits_val ps t v -> decodes (r_val ps' t) (wr_val tag t v) (ren_val f t v))
                   (fun r => forall v, fits_vals ps r v -> decodes (r_vals ps' r) (wr_vals tag r v) (ren_vals f r v))).
  - intros v H. now apply d_str.
  - intros v (H1&H2). now apply d_strs.
  - intros v _. apply d_bool.
  - intros v H. now apply d_u8.
  - intros v H. now apply d_i32.
  - intros v H. now apply d_u32.
  - intros v H. now apply d_u64.
  - intros r IH v H. now apply IH.
  - intros r IH v (H1&H2). cbn [r_val wr_val ren_val]. apply d_count; auto. revert H2. apply Forall_impl. exact IH.
  - intros v H. cbn [r_val wr_val ren_val]. destruct v as [p|].
    + destruct (Htag p H) as (B&_). apply (d_map _ _ _ (tag p)); [apply d_u32; lia|].
      destruct (N.eqb_spec (tag p) INVALID) as [E|_]; [unfold INVALID in E; lia|].
      apply (d_map _ _ _ (f p)); [now apply d_at|apply d_ret].
    + apply (d_map _ _ _ INVALID); [apply d_u32; reflexivity|]. rewrite N.eqb_refl. apply d_ret.
  - intros v (H1&H2). cbn [r_val wr_val ren_val]. apply d_count; auto. revert H2. apply Forall_impl. intros p Hp.
    destruct (Htag p Hp) as (B&_). apply (d_map _ _ _ (tag p)); [apply d_u32; lia|now apply d_at].
  - intros v _. destruct v. apply d_ret.
  - intros p IHp r IHr v (H1&H2). cbn [r_vals wr_vals ren_vals]. apply (d_bind _ _ _ _ (ren_val f p (fst v))); [now apply IHp|].
    apply (d_map _ _ _ (ren_vals f r (snd v))); [now apply IHr|apply d_ret].
  - intros r IH v H. now apply IH.
Qed.
Lemma d_members file o (v : members file o) : fits_members ps file o v -> decodes (r_members ps' file o) (wr_members tag file o v) (ren_members f file o v).
Proof.
  destruct file; [intros _; destruct v; apply d_ret|]. destruct o as [r|]; [|intros []]. intros H. cbn in *.
  pose proof (d_val_vals (TStruct r) v H) as D. exact D.
Qed.
Definition ren_dep (d : dep) : dep := mkD (f (dep_node d)) (dep_stamp d) (dep_weak d).
Lemma d_dep d : In (dep_node d) ps -> dep_stamp d < 18446744073709551616 -> decodes (r_dep ps') (wr_dep tag d) (ren_dep d).
Proof.
  intros H B. unfold r_dep, wr_dep. destruct (Htag _ H) as (T&_). apply (d_bind _ _ _ _ (tag (dep_node d))); [apply d_u32; lia|].
  rewrite <- (app_nil_l (le_bytes 8 _ ++ _)). apply (d_bind _ _ _ _ (f (dep_node d))); [now apply d_at|].
  apply (d_bind _ _ _ _ (dep_stamp d)); [now apply d_u64|]. apply (d_map _ _ _ (dep_weak d)); [apply d_bool|]. apply d_ret.
Qed.
Lemma d_deps l : fits_deps ps l -> decodes (r_deps ps' (N.of_nat (List.length l))) (wr_deps tag l) (map ren_dep l).
Proof.
  intros (S&F). unfold r_deps, wr_deps. rewrite Nat2N.id. apply d_rep. revert F. apply Forall_impl. intros d (H1&H2). now apply d_dep.
Qed.

Definition basic (n : node) : bytes * N * N := (n_name _ n, n_type _ n, n_hash _ n).
Definition ren_node (n : node) : node :=
  if n_type _ n =? FILE_NODE then mkN _ (n_name _ n) (n_hash _ n) (ren_kind schema f (n_kind _ n)) 0 0 [] [] []
  else mkN _ (n_name _ n) (n_hash _ n) (ren_kind schema f (n_kind _ n)) (n_stamp _ n) (n_time _ n) (map ren_dep (n_pre _ n)) (map ren_dep (n_static _ n)) (map ren_dep (n_dyn _ n)).
Lemma small_count {A} (l : list A) : small l -> count l = le_bytes 4 (N.of_nat (List.length l)).
Proof. intros S. unfold count, u32s, u32. now rewrite N.mod_small. Qed.
Lemma d_file file o (v : members file o) : file = true -> decodes (r_members ps' file o) [] (ren_members f file o v).
Proof. destruct file; [|discriminate]. intros _. destruct v. apply d_ret. Qed.
Lemma d_ext rehash n : fits_node schema rehash ps n ->
  decodes (r_ext schema ps' (basic n)) (if n_type _ n =? FILE_NODE then [] else wr_ext schema tag n) (ren_node n).
Proof.
  destruct n as [name hash [ty v] stamp time pre stat dyn]. intros (_&_&_&_&K&S&T&P&St&D). unfold basic, ren_node, wr_ext, n_type, r_ext in *.
  cbn [n_name n_hash n_kind n_stamp n_time n_pre n_static n_dyn projT1 projT2] in *.
  pose proof (d_members _ _ v K) as DK. pose proof (d_file (ty =? FILE_NODE) (schema ty) v) as DF.
  destruct (N.eqb_spec ty FILE_NODE) as [E|E].
  - apply (d_map _ _ _ (ren_members f _ _ v)); [|apply d_ret]. unfold r_props. destruct (N.eqb_spec ty FILE_NODE); [|congruence]. now apply DF.
  - clear DF. rewrite (small_count pre (proj1 P)), (small_count stat (proj1 St)), (small_count dyn (proj1 D)).
    apply (d_bind _ _ _ _ stamp); [now apply d_u64|]. apply (d_bind _ _ _ _ time); [now apply d_u32|].
    apply (d_bind _ _ _ _ (N.of_nat (List.length pre))); [apply d_u32, P|].
    apply (d_bind _ _ _ _ (N.of_nat (List.length stat))); [apply d_u32, St|].
    apply (d_bind _ _ _ _ (N.of_nat (List.length dyn))); [apply d_u32, D|].
    apply (d_bind _ _ _ _ (ren_members f (ty =? FILE_NODE) (schema ty) v)).
    { unfold r_props, wr_props. destruct (N.eqb_spec ty FILE_NODE); [congruence|]. exact DK. }
    apply (d_bind _ _ _ _ (map ren_dep pre)); [now apply d_deps|]. apply (d_bind _ _ _ _ (map ren_dep stat)); [now apply d_deps|].
    apply (d_map _ _ _ (map ren_dep dyn)); [now apply d_deps|]. apply d_ret.
Qed.
Lemma d_exts rehash (l : graph) : Forall (fun pn => fits_node schema rehash ps (snd pn)) l ->
  Forall2 (fun ab (c : ptr * node) => decodes (r_ext schema ps' (fst ab)) (if n_type _ (snd c) =? FILE_NODE then [] else wr_ext schema tag (snd c)) (snd ab))
    (combine (map (fun pn => basic (snd pn)) l) (map (fun pn => ren_node (snd pn)) l)) l.
Proof. induction 1 as [|pn l F1 F IH]; [constructor|]. cbn [map combine]. constructor; [|exact IH]. cbn [fst snd]. now apply (d_ext rehash). Qed.
End Values.

(** ** The node part *)
Section Nodes.
Variables (rehash : bytes -> N) (stale : ptr -> N) (alloc : nat -> ptr) (g : graph).
Hypothesis Hg : real_graph schema rehash g.
Let ps := map fst g.
Let ps' := map alloc (seq 0 (List.length g)).
Let tag := set_tags 0 ps stale.
Definition newp (p : ptr) : ptr := alloc (N.to_nat (set_tags 0 (map fst g) stale p)).
Lemma tag_at k p : nth_error ps k = Some p -> tag p = N.of_nat k /\ (k < List.length g)%nat.
Proof.
  destruct Hg as (ND&B&_). intros E. assert (K : (k < List.length ps)%nat) by (apply nth_error_Some; congruence). unfold ps in K. rewrite map_length in K.
  split; [|exact K]. unfold tag. rewrite (set_tags_in ps 0 stale k p ND E). unfold u32. rewrite N.mod_small; lia.
Qed.
Lemma tag_ok p : In p ps -> tag p < 4294967295 /\ nth_error ps' (N.to_nat (tag p)) = Some (newp p).
Proof.
  intros H. apply In_nth_error in H. destruct H as (k&E). destruct (tag_at k p E) as (T&K). pose proof (proj1 (proj2 Hg)) as B. split; [lia|].
  unfold newp. fold ps tag. rewrite T, Nat2N.id. unfold ps'. rewrite nth_error_map. rewrite (nth_error_nth' _ 0%nat) by (rewrite seq_length; lia). rewrite seq_nth by lia. reflexivity.
Qed.
Lemma newp_inj : (forall i j, alloc i = alloc j -> i = j) -> forall p q, In p ps -> In q ps -> newp p = newp q -> p = q.
Proof.
  intros AI p q Hp Hq E. apply In_nth_error in Hp, Hq. destruct Hp as (k&Ek), Hq as (l&El). unfold newp in E. fold ps tag in E. apply AI in E.
  rewrite (proj1 (tag_at k p Ek)), (proj1 (tag_at l q El)), !Nat2N.id in E. congruence.
Qed.
Lemma fits_known l file o (v : members file o) : fits_members l file o v -> file || match o with Some _ => true | None => false end = true.
Proof. destruct file; [reflexivity|]. destruct o; [reflexivity|intros []]. Qed.
Lemma fits_type n : fits_node schema rehash ps n -> (n_type schema n =? FILE_NODE) || match schema (n_type schema n) with Some _ => true | None => false end = true.
Proof.
  intros (_&_&_&_&K&_). exact (fits_known _ _ _ _ K).
Qed.
Lemma d_basic n : fits_node schema rehash ps n -> decodes (r_basic schema rehash) (wr_basic schema n) (basic n).
Proof.
  intros F. pose proof (fits_type n F) as FT. destruct F as (S&H&R&T&_). unfold r_basic, wr_basic. apply (d_bind _ _ _ _ (n_name _ n)); [now apply d_str|].
  apply (d_bind _ _ _ _ (n_type _ n)); [now apply d_u8|]. apply (d_map _ _ _ (n_hash _ n)); [now apply d_u32|].
  intros s rest V. rewrite FT. exists s. split; [|exact V]. unfold basic. destruct (N.eqb_spec (n_hash _ n) 0) as [Z|Z]; [|reflexivity]. rewrite <- R. reflexivity.
Qed.
Definition ren_graph : graph := combine ps' (map (fun pn => ren_node newp (snd pn)) g).
Lemma combine_map_l {A B C} (h : A -> C) (la : list A) (lb : list B) : forall x, In x (combine (map h la) lb) -> exists a, In (a, snd x) (combine la lb) /\ fst x = h a.
Proof. revert lb. induction la as [|a la IH]; intros [|b lb] x H; cbn in H; try tauto. destruct H as [<-|H]; [exists a; cbn; auto|]. destruct (IH lb x H) as (a'&I&E). exists a'. cbn. auto. Qed.
Lemma d_nodes : decodes (r_nodes schema rehash alloc) (wr_nodes schema stale g) ren_graph.
Proof.
  destruct Hg as (ND&B&F&_). unfold r_nodes, wr_nodes. fold ps tag. rewrite app_assoc.
  apply (d_bind _ _ _ _ (map (fun pn => basic (snd pn)) g)).
  - apply d_count; [unfold small; lia|]. revert F. apply Forall_impl. intros pn. apply d_basic.
  - cbv zeta. rewrite map_length. fold ps'.
    apply (d_map _ _ _ (map (fun pn => ren_node newp (snd pn)) g)); [|apply d_ret].
    apply d_each; [|now rewrite !map_length].
    apply (d_exts ps ps' tag newp tag_ok rehash g F).
Qed.
Lemma ren_same (AI : forall i j, alloc i = alloc j -> i = j) : same_graph schema g ren_graph.
Proof.
  exists newp. split; [apply newp_inj, AI|].
  assert (Q : forall k l, (forall i pn, nth_error l i = Some pn -> newp (fst pn) = alloc (k + i)%nat) ->
     Forall2 (fun a b : ptr * node => fst b = newp (fst a) /\ same_node schema newp (snd a) (snd b)) l (combine (map alloc (seq k (List.length l))) (map (fun pn => ren_node newp (snd pn)) l))).
  { intros k l. revert k. induction l as [|pn l IH]; intros k H; [constructor|]. cbn [List.length seq map combine]. constructor.
    - cbn [fst snd]. split; [rewrite (H 0%nat pn eq_refl); f_equal; lia|]. unfold same_node, ren_node.
      destruct (snd pn) as [name hash [ty v] stamp time pre stat dyn]. unfold n_type. cbn [n_name n_hash n_kind n_stamp n_time n_pre n_static n_dyn projT1 projT2].
      destruct (N.eqb_spec ty FILE_NODE); cbn [n_name n_hash n_kind n_stamp n_time n_pre n_static n_dyn projT1 projT2]; (split; [reflexivity|]); (split; [reflexivity|]); (split; [reflexivity|]); (split; [reflexivity|]).
      + congruence.
      + intros _. split; [reflexivity|]. split; [reflexivity|].
        assert (FD : forall l0, Forall2 (same_dep newp) l0 (map (ren_dep newp) l0)) by (intros l0; induction l0; cbn; constructor; auto; repeat split).
        auto.
    - apply IH. intros i pn' E. specialize (H (S i) pn' E). rewrite H. f_equal. lia. }
  apply (Q 0%nat g). intros i pn E. assert (E' : nth_error ps i = Some (fst pn)) by (unfold ps; now rewrite nth_error_map, E).
  destruct (tag_at i _ E') as (T&_). unfold newp. fold ps tag. rewrite T, Nat2N.id. reflexivity.
Qed.
Lemma ren_settings : has_settings schema ren_graph = true.
Proof.
  destruct Hg as (_&_&_&(pn&I&E1&E2)). unfold has_settings. apply existsb_exists.
  apply In_nth_error in I. destruct I as (k&I). assert (K : (k < List.length g)%nat) by (apply nth_error_Some; congruence).
  exists (alloc k, ren_node newp (snd pn)). split.
  - unfold ren_graph. apply (nth_error_In _ k).
    assert (NC : forall A B (la : list A) (lb : list B) j a b, nth_error la j = Some a -> nth_error lb j = Some b -> nth_error (combine la lb) j = Some (a, b)).
    { intros A B la. induction la as [|a0 la IH]; intros [|b0 lb] [|j] a b H1 H2; cbn in *; try discriminate; [congruence|eauto]. }
    apply NC; [|now rewrite nth_error_map, I]. unfold ps'. rewrite nth_error_map. rewrite (nth_error_nth' _ 0%nat) by (rewrite seq_length; lia). rewrite seq_nth by lia. reflexivity.
  - cbn [snd]. assert (N1 : n_name _ (ren_node newp (snd pn)) = n_name _ (snd pn)) by (unfold ren_node; now destruct (_ =? _)).
    assert (N2 : n_type _ (ren_node newp (snd pn)) = n_type _ (snd pn)) by (unfold ren_node; now destruct (_ =? _)).
    rewrite N1, N2, E1, E2. apply andb_true_intro. split; reflexivity.
Qed.
End Nodes.

(** ** The configuration part *)
Lemma d_used u : small (fst (fst u)) /\ snd (fst u) < 18446744073709551616 /\ snd u < 18446744073709551616 -> decodes r_used (wr_used u) u.
Proof.
  destruct u as [[nm st] h]. cbn [fst snd]. intros (S&T&H). unfold r_used, wr_used. apply (d_bind _ _ _ _ nm); [now apply d_str|].
  apply (d_bind _ _ _ _ st); [now apply d_u64|]. apply (d_map _ _ _ h); [now apply d_u64|]. apply d_ret.
Qed.
Lemma d_over o : match o with None => True | Some (e, lib) => e <> [] /\ small e /\ small lib end -> decodes r_over (wr_over o) o.
Proof.
  destruct o as [[e lib]|]; unfold r_over, wr_over.
  - intros (NE&S1&S2). assert (NZ : blen e <> 0) by (destruct e; [congruence|discriminate]). replace (blen e =? 0) with false by (symmetry; now apply N.eqb_neq).
    unfold u32s, u32. rewrite N.mod_small by exact S1. apply (d_bind _ _ _ _ (blen e)); [now apply d_u32|].
    replace (blen e =? 0) with false by (symmetry; now apply N.eqb_neq). apply (d_bind _ _ _ _ e); [exact (proj1 (c_raw e))|].
    apply (d_map _ _ _ lib); [now apply d_str|]. apply d_ret.
  - intros _. apply (d_map _ _ _ 0); [now apply d_u32|]. apply d_ret.
Qed.
Lemma d_var v : small (fst v) /\ snd v < 4294967296 -> decodes r_var (wr_str (fst v) ++ le_bytes 4 (snd v)) v.
Proof.
  destruct v as [nm h]. cbn [fst snd]. intros (S&H). unfold r_var. apply (d_bind _ _ _ _ nm); [now apply d_str|]. apply (d_map _ _ _ h); [now apply d_u32|]. apply d_ret.
Qed.
Lemma combine_split' {A B} (l : list (A * B)) : combine (map fst l) (map snd l) = l.
Proof. induction l as [|[a b] l IH]; cbn; congruence. Qed.
Lemma d_fx l : small l -> Forall (fun x => small (fst x)) l -> decodes r_fx (wr_strs (map fst l) ++ (count l ++ flat_map (fun x : bytes * bool => wr_bool (snd x)) l)) l.
Proof.
  intros S F. unfold r_fx. apply (d_bind _ _ _ _ (map fst l)).
  - apply d_strs; [unfold small in *; now rewrite map_length|]. apply Forall_forall. intros x H. apply in_map_iff in H. destruct H as (y&<-&I). rewrite Forall_forall in F. auto.
  - apply (d_map _ _ _ (map snd l)).
    + apply d_count; auto. apply Forall_forall. intros x _. apply d_bool.
    + intros s rest V. exists s. rewrite !map_length, Nat.eqb_refl, combine_split'. auto.
Qed.

Section Whole.
Variables (h32 h64 : bytes -> N) (clean : bytes -> bytes) (same_path : bytes -> bytes -> bool) (rehash : bytes -> N).
Definition file_of (stale : ptr -> N) (path : bytes) (d : db) (g : graph) : bytes :=
  header (h64 (body schema clean stale path d g)) ++ body schema clean stale path d g.

Lemma d_rest stale alloc d g : real_db d -> real_graph schema rehash g ->
  decodes (r_rest schema rehash (db_used d) alloc)
    (wr_over (db_over d) ++ (count (db_env d) ++ flat_map (fun v => wr_str (fst v) ++ le_bytes 4 (snd v)) (db_env d)) ++ le_bytes 4 (db_lib d) ++
     (wr_strs (map fst (db_fx d)) ++ (count (db_fx d) ++ flat_map (fun x => wr_bool (snd x)) (db_fx d))) ++ wr_nodes schema stale g)
    (d, ren_graph stale alloc g).
Proof.
  intros (U&O&(E1&E2)&Lb&(X1&X2)) Hg. unfold r_rest. apply (d_bind _ _ _ _ (db_over d)); [now apply d_over|].
  apply (d_bind _ _ _ _ (db_env d)). { apply d_count_id; auto. revert E2. apply Forall_impl. intros v. apply d_var. }
  apply (d_bind _ _ _ _ (db_lib d)); [now apply d_u32|]. apply (d_bind _ _ _ _ (db_fx d)); [now apply d_fx|].
  apply (d_map _ _ _ (ren_graph stale alloc g)); [apply (d_nodes rehash stale alloc g Hg)|]. destruct d. apply d_ret.
Qed.
Lemma must_decodes {A} (r : reader A) e x : decodes r e x -> decodes (must r) e x.
Proof. intros D s rest V. destruct (D s rest V) as (s'&E&V'). exists s'. unfold must. rewrite E. auto. Qed.
Lemma header_len h : List.length (header h) = 16%nat.
Proof. unfold header. rewrite app_length, le_bytes_len. reflexivity. Qed.
Lemma firstn_app_exact {A} (a b : list A) n : List.length a = n -> firstn n (a ++ b) = a.
Proof. intros <-. rewrite firstn_app, Nat.sub_diag, firstn_all. cbn. apply app_nil_r. Qed.
Lemma skipn_app_exact {A} (a b : list A) n : List.length a = n -> skipn n (a ++ b) = b.
Proof. intros <-. rewrite skipn_app, Nat.sub_diag, skipn_all. reflexivity. Qed.
Lemma load_file_of cont w reg alloc stale path d g :
  real_db d -> real_graph schema rehash g -> small (clean path) -> same_path (clean path) (clean path) = true -> (forall b, h64 b < 18446744073709551616) ->
  load_bytes schema h32 h64 clean same_path rehash cont w reg alloc path (file_of stale path d g) =
  Some (let '(again, reg') := load h32 h64 w d reg in
        if again then REPARSE schema (refresh h64 w d) (ren_graph stale alloc g) reg' else OK schema (refresh h64 w d) (ren_graph stale alloc g) reg').
Proof.
  intros Hd Hg Hp SP HB. unfold load_bytes, file_of. set (B := body schema clean stale path d g).
  pose proof (proj1 (c_raw (header (h64 B))) (ks_new (header (h64 B) ++ B)) B (views_new _)) as (s&E&V).
  replace (blen (header (h64 B))) with HEADER in E by (unfold blen; rewrite header_len; reflexivity). rewrite E.
  change (beq (firstn 3 (header (h64 B))) [78; 71; 68]) with true. cbn [negb]. change (nth 3 (header (h64 B)) 0 =? VERSION) with true. cbn [negb].
  rewrite (skipn_app_exact (header (h64 B)) B) by (rewrite header_len; reflexivity).
  change (skipn 8 (header (h64 B))) with (le_bytes 8 (h64 B)). rewrite le_value_u64 by apply HB. rewrite N.eqb_refl. cbn [negb].
  unfold B, body in V. destruct (d_str (clean path) Hp s _ V) as (s1&E1&V1). rewrite E1, SP. cbn [negb].
  unfold wr_conf in V1. rewrite <- !app_assoc in V1.
  pose proof Hd as ((U1&U2)&_).
  assert (DU : decodes (r_counted r_used) (count (db_used d) ++ flat_map wr_used (db_used d)) (db_used d)).
  { apply d_count_id; auto. revert U2. apply Forall_impl. intros u. apply d_used. }
  rewrite app_assoc in V1. destruct (DU s1 _ V1) as (s2&E2&V2). rewrite E2.
  pose proof (must_decodes _ _ _ (d_rest stale alloc d g Hd Hg) s2 []) as DR. rewrite app_nil_r, <- !app_assoc in DR.
  destruct (DR V2) as (s3&E3&_). rewrite E3. rewrite (ren_settings rehash stale alloc g Hg).
  destruct (load h32 h64 w d reg) as [again reg']. reflexivity.
Qed.

(** ** Pages *)
Lemma page_list_ok s : cs_ok s -> cs_pages s <> [] -> page_list s = Some (cs_pages s).
Proof.
  intros (PG&[[H _]|(full&lst&HP&FA&EL&PP)]) NE; [congruence|].
  assert (Q : forall k l, skipn k (cs_pages s) = l -> (k + List.length l = List.length (cs_pages s))%nat -> fold_right (fun i acc => match cs_get_page s i, acc with
                           | Some (pg, n), Some l => if n <=? blen pg then Some (firstn (N.to_nat n) pg :: l) else None
                           | _, _ => None
                           end) (Some []) (seq k (List.length l)) = Some l).
  { intros k l. revert k. induction l as [|pg l IH]; intros k SK LN; [reflexivity|]. cbn [List.length seq fold_right].
    assert (NT : nth_error (cs_pages s) k = Some pg).
    { rewrite <- (firstn_skipn k (cs_pages s)), SK. cbn [List.length] in LN. rewrite nth_error_app2 by (rewrite firstn_length; lia).
      rewrite firstn_length. replace (k - Nat.min k _)%nat with 0%nat by lia. reflexivity. }
    rewrite (IH (S k)); [| |cbn [List.length] in LN; lia].
    - unfold cs_get_page. rewrite NT.
      assert (SZ : (if (k =? List.length (cs_pages s) - 1)%nat then cs_pos s else cs_page s) = blen pg).
      { rewrite HP in NT |- *. rewrite app_length. cbn [List.length]. destruct (Nat.eqb_spec k (List.length full + 1 - 1)) as [K|K].
        - rewrite nth_error_app2 in NT by lia. replace (k - _)%nat with 0%nat in NT by lia. cbn in NT. congruence.
        - assert (k < List.length full)%nat. { rewrite HP, app_length in LN. cbn [List.length] in LN. lia. }
          rewrite nth_error_app1 in NT by lia. apply nth_error_In in NT. rewrite Forall_forall in FA. symmetry. now apply FA. }
      rewrite SZ, N.leb_refl, to_nat_blen, firstn_all. reflexivity.
    - rewrite <- (firstn_skipn k (cs_pages s)) at 1. rewrite SK. cbn [List.length] in LN.
      assert (LF : List.length (firstn k (cs_pages s)) = k) by (rewrite firstn_length; lia).
      rewrite skipn_app, skipn_all2 by lia. rewrite LF. replace (S k - k)%nat with 1%nat by lia. reflexivity. }
  apply (Q 0%nat); [reflexivity|lia].
Qed.
Lemma save_pages_ok page stale path d g : 16 <= page < 4294967296 ->
  exists pages, save_pages schema h64 clean page stale path d g = Some pages /\ concat pages = file_of stale path d g.
Proof.
  intros HP. unfold save_pages. set (B := body schema clean stale path d g).
  assert (CO : cs_ok (cs_new page)). { unfold cs_ok, cs_new, u32. cbn [cs_page cs_pages cs_pos]. rewrite N.mod_small by lia. split; [lia|left; auto]. }
  destruct (cs_writes_ok [header 0; B] (cs_new page) CO) as (s&E&O&C&P). rewrite E. cbn [concat app] in C. cbn [cs_new cs_pages concat app] in C. rewrite app_nil_r in C.
  assert (NE : cs_pages s <> []) by (intros X; rewrite X in C; discriminate).
  rewrite (page_list_ok s O NE). destruct (cs_pages s) as [|p0 rest] eqn:EP; [congruence|].
  assert (L0 : 16 <= blen p0).
  { destruct O as (PG&[[X _]|(full&lst&X&FA&EL&PP)]); [congruence|]. rewrite EP in X. destruct full as [|p full].
    - cbn in X. injection X as -> ->. cbn [concat] in C. rewrite app_nil_r in C. rewrite C, blen_app. unfold blen at 1. rewrite header_len. lia.
    - cbn in X. injection X as -> _. inversion FA; subst. rewrite H1, P. unfold cs_new, u32. cbn [cs_page]. rewrite N.mod_small by lia. lia. }
  destruct (N.ltb_spec (blen p0) HEADER) as [X|_]; [unfold HEADER in X; lia|].
  cbn [concat] in C.
  assert (SK : skipn (N.to_nat HEADER) p0 ++ concat rest = B).
  { change (N.to_nat HEADER) with 16%nat. assert (X : skipn 16 (p0 ++ concat rest) = skipn 16 (header 0 ++ B)) by now rewrite C.
    rewrite (skipn_app_exact (header 0) B) in X by apply header_len. rewrite skipn_app in X. replace (16 - List.length p0)%nat with 0%nat in X by (unfold blen in L0; lia). exact X. }
  eexists. split; [reflexivity|]. cbn [concat]. rewrite SK. unfold file_of. fold B. rewrite <- !app_assoc, SK.
  assert (F8 : firstn 8 p0 = [78; 71; 68; VERSION; 0; 0; 0; 0]).
  { assert (X : firstn 8 (p0 ++ concat rest) = firstn 8 (header 0 ++ B)) by now rewrite C. rewrite firstn_app in X. replace (8 - List.length p0)%nat with 0%nat in X by (unfold blen in L0; lia).
    cbn [firstn] in X. rewrite app_nil_r in X. exact X. }
  rewrite F8. unfold header. rewrite <- app_assoc. reflexivity.
Qed.
End Whole.
End Schema.
