(** What is wanted of the settings and the lists of targets of a function call (C79, C80), and of names (C81).
    Uses of the model only its data types and the names of path functions (C17). *)
From Coq Require Import String List Arith Bool Ascii ZArith.
From Verif Require Import M_Path M_Names M_Props.
Import ListNotations.
Open Scope list_scope.

(** ** Names and aliases *)
Definition goes_by (g : graph) (s : str) (k : nat) : Prop :=
  exists n, nth_error g k = Some n /\ lower (nname n) = lower s.
(** The target a name means: the one with that name as it is written, else the one with the full path. *)
Definition called (cp : str -> str) (g : graph) (s : str) (k : nat) : Prop :=
  goes_by g s k \/ (forall j, ~ goes_by g s j) /\ goes_by g (cp s) k.
(** The targets, none of them an alias, that a target stands for, in order. *)
Inductive stands_for (g : graph) : nat -> list nat -> Prop :=
| stands_self k n : nth_error g k = Some n -> ntype n <> TyAlias -> stands_for g k [k]
| stands_alias k n ls : nth_error g k = Some n -> ntype n = TyAlias ->
    Forall2 (stands_for g) (aliased n) ls -> stands_for g k (concat ls).
(** Names are unique (C18); an alias has a name, is no file and is for targets that exist; those of them that are aliases
    were there before it. *)
Record healthy (g : graph) : Prop := {
  unique : forall i j ni nj, nth_error g i = Some ni -> nth_error g j = Some nj ->
             lower (nname ni) = lower (nname nj) -> i = j;
  alias_no_file : forall k n, nth_error g k = Some n -> ntype n = TyAlias -> is_file n = false;
  alias_named : forall k n, nth_error g k = Some n -> ntype n = TyAlias -> nname n <> [];
  alias_before : forall k n t, nth_error g k = Some n -> ntype n = TyAlias -> In t (aliased n) ->
             exists x, nth_error g t = Some x /\ (ntype x = TyAlias -> t < k)
}.

(** ** Strings *)
Section Cleaner.
Context (p : plat) (cp : str -> str).

(** Runs of slashes become one. *)
Fixpoint one_slash (s : str) : str :=
  match s with
  | [] => []
  | a :: t => match t with
              | b :: _ => if Ascii.eqb a (native p) && Ascii.eqb b (native p) then one_slash t else a :: one_slash t
              | [] => [a]
              end
  end.
Definition slashes (s : str) : str := map (fun c => if Ascii.eqb c (other p) then native p else c) s.
Definition unc (s : str) : bool := windows p && starts_with [native p; native p] s.
(** The text of a property that is not expanded: a folder, relative or full, ends in a slash; a file, relative
    or full, must not. *)
Definition as_folder (m : smeta) (s t : str) : Prop :=
  match path m with
  | None => t = s
  | Some true =>
      let u := (if unc (slashes s) then [native p] else []) ++ one_slash (slashes s) in
      t = if ends_with u [native p] then u else u ++ [native p]
  | Some false => t = ensure_trailing p (cp s)
  end.
Definition as_file (m : smeta) (s t : str) : Prop :=
  match file m with
  | None => t = s
  | Some true => t = one_slash (slashes s) /\ is_folder p t = false
  | Some false => t = cp s /\ is_folder p t = false
  end.
Definition written (m : smeta) (s t : str) : Prop := exists u, as_folder m s u /\ as_file m u t.
(** The text for a target [n] called [s]: the full path of a file; for what is no file, if such targets are
    allowed here, the name. *)
Definition text_for (m : smeta) (n : node) (s t : str) : Prop :=
  (is_file n = true /\ t = cp s /\ is_folder p t = false) \/
  (is_file n = false /\ t = s /\ (nonfile m = Some None \/ nonfile m = Some (Some (ntype n)))).
Definition target_text (g : graph) (m : smeta) (k : nat) (t : str) : Prop :=
  exists n, nth_error g k = Some n /\ (nname n = [] /\ t = [] \/ nname n <> [] /\ text_for m n (nname n) t).
(** The texts that a string in a BFF file gives: one, but for aliases where a file is asked for. *)
Definition gives (g : graph) (m : smeta) (s : str) (l : list str) : Prop :=
  s = [] /\ l = [[]] \/
  s <> [] /\ file m <> Some false /\ (exists t, written m s t /\ l = [t]) \/
  s <> [] /\ file m = Some false /\ (forall k, ~ called cp g s k) /\ (exists t, written m s t /\ l = [t]) \/
  s <> [] /\ file m = Some false /\
    (exists k n, called cp g s k /\ nth_error g k = Some n /\
      (ntype n <> TyAlias /\ (exists t, text_for m n s t /\ l = [t]) \/
       ntype n = TyAlias /\ (exists ls, stands_for g k ls /\ Forall2 (target_text g m) ls l))).

(** ** Lists of targets *)
(** Each once, where it comes first. *)
Fixpoint firsts (seen l : list nat) : list nat :=
  match l with
  | [] => []
  | x :: r => if in_dec Nat.eq_dec x seen then firsts seen r else x :: firsts (x :: seen) r
  end.
Definition allowed (o : nopts) (n : node) : Prop :=
  is_file n = true \/ ntype n = TyObjectList \/ ntype n = TyCopyDir /\ copydir o = true \/
  ntype n = TyRemoveDir /\ removedir o = true \/ ntype n = TyUnity /\ unity o = true \/
  ntype n = TyCompiler /\ compiler o = true.
(** The targets that one name lists; a name nobody has becomes a file. *)
Inductive lists (o : nopts) (g : graph) (s : str) : graph -> list nat -> Prop :=
| lists_file : (forall k, ~ called cp g s k) ->
    lists o g s (g ++ [mkNode (cp s) TyFile true []]) [List.length g]
| lists_target k ls : called cp g s k -> stands_for g k ls ->
    (forall x, In x ls -> exists n, nth_error g x = Some n /\ allowed o n) ->
    lists o g s g (if no_dups o then firsts [] ls else ls).
Inductive lists_each (o : nopts) : graph -> list str -> graph -> list nat -> Prop :=
| each_nil g : lists_each o g [] g []
| each_cons g s r g1 l1 g2 l2 : s <> [] -> lists o g s g1 l1 -> lists_each o g1 r g2 l2 ->
    lists_each o g (s :: r) g2 (l1 ++ l2).

(** ** Settings *)
Definition no_embed (ty : ptype) : Prop := match ty with PEmbed _ => False | _ => True end.
Definition names_in (v : var) : option (list str) :=
  match v with VStr s => Some [s] | VStrs l => Some l | _ => None end.
Definition texts_of (g : graph) (m : smeta) (v : var) (l : list str) : Prop :=
  exists ss ls, names_in v = Some ss /\ Forall2 (gives g m) ss ls /\ l = concat ls.
Definition within (r : option (Z * Z)) (z : Z) : Prop :=
  match r with Some (a, b) => (a <= z <= b)%Z | None => True end.
Definition structs_in (v : var) : option (list (list (str * var))) :=
  match v with VStruct m => Some [m] | VStructs l => Some l | _ => None end.
(** The first member with a name. *)
Definition has_member (ms : list (str * var)) (n : str) (v : var) : Prop :=
  exists a b, ms = a ++ (n, v) :: b /\ ~ In n (map fst a).
Definition no_member (ms : list (str * var)) (n : str) : Prop := ~ In n (map fst ms).
Definition of_struct (env : str -> option var) (ms : list (str * var)) (look : prop -> option var) : Prop :=
  forall q, (forall v, has_member ms (dotted (pname q)) v -> look q = Some v) /\
            (no_member ms (dotted (pname q)) -> look q = if inherit q then env (dotted (pname q)) else None).

(** How a property is set from a variable; how the properties of a class are set; how a list of structs is
    set.  A graph before and one after, for lists of targets may add files. *)
Inductive sets (env : str -> option var) : prop -> option var -> graph -> option value -> graph -> Prop :=
| set_nothing n ty h i g : no_embed ty -> sets env (mkProp n ty h false i) None g None g
| set_strings n m h r i g v l : texts_of g m v l -> ~ In [] l -> (r = true -> l <> []) ->
    sets env (mkProp n (PStr true m) h r i) (Some v) g (Some (SetStrs l)) g
| set_string n m h r i g s t : s <> [] -> t <> [] -> gives g m s [t] ->
    sets env (mkProp n (PStr false m) h r i) (Some (VStr s)) g (Some (SetStr t)) g
| set_no_string n m h i g s l : gives g m s l -> (l = [] \/ exists r, l = [] :: r) ->
    sets env (mkProp n (PStr false m) h false i) (Some (VStr s)) g (Some (SetStr [])) g
| set_bool n h r i g b : sets env (mkProp n PBool h r i) (Some (VBool b)) g (Some (SetBool b)) g
| set_int n rg h r i g z : within rg z ->
    sets env (mkProp n (PInt rg) h r i) (Some (VInt z)) g (Some (SetInt z)) g
| set_uint n rg h r i g z : within rg z ->
    sets env (mkProp n (PUInt rg) h r i) (Some (VInt z)) g (Some (SetUInt (z mod 2 ^ 32)%Z)) g
| set_structs n cls h r i g v ss l g' : structs_in v = Some ss -> sets_structs env cls ss g l g' ->
    sets env (mkProp n (PStructs cls) h r i) (Some v) g (Some (SetStructs l)) g'
| set_embedded n cls h r i v g l g' : sets_class env (fun q => env (dotted (pname q))) cls g l g' ->
    sets env (mkProp n (PEmbed cls) h r i) v g (Some (SetEmbed l)) g'
| set_targets n h r i g w v ss g' l : env (dotted n) = Some v -> names_in v = Some ss ->
    lists_each all_opts g ss g' l ->
    sets env (mkProp n (PNodes true) h r i) (Some w) g (Some (SetNodes l)) g'
| set_target n h r i g w v ss g' k : env (dotted n) = Some v -> names_in v = Some ss ->
    lists_each all_opts g ss g' [k] ->
    sets env (mkProp n (PNodes false) h r i) (Some w) g (Some (SetNode (Some k))) g'
| set_no_target n h r i g w v ss g' : env (dotted n) = Some v -> names_in v = Some ss ->
    lists_each all_opts g ss g' [] ->
    sets env (mkProp n (PNodes false) h r i) (Some w) g (Some (SetNode None)) g'
| set_absent_targets n h i g w : env (dotted n) = None ->
    sets env (mkProp n (PNodes true) h false i) (Some w) g (Some (SetNodes [])) g
| set_absent_target n h i g w : env (dotted n) = None ->
    sets env (mkProp n (PNodes false) h false i) (Some w) g (Some (SetNode None)) g
with sets_class (env : str -> option var) : (prop -> option var) -> list prop -> graph ->
    list (str * value) -> graph -> Prop :=
| class_end look g : sets_class env look [] g [] g
| class_hidden look q r g l g' : hidden q = true -> sets_class env look r g l g' ->
    sets_class env look (q :: r) g l g'
| class_left look q r g g1 l g' : hidden q = false -> sets env q (look q) g None g1 ->
    sets_class env look r g1 l g' -> sets_class env look (q :: r) g l g'
| class_set look q r g x g1 l g' : hidden q = false -> sets env q (look q) g (Some x) g1 ->
    sets_class env look r g1 l g' -> sets_class env look (q :: r) g ((pname q, x) :: l) g'
with sets_structs (env : str -> option var) : list prop -> list (list (str * var)) -> graph ->
    list (list (str * value)) -> graph -> Prop :=
| structs_end cls g : sets_structs env cls [] g [] g
| structs_cons cls ms r g look l g1 ls g' : of_struct env ms look -> sets_class env look cls g l g1 ->
    sets_structs env cls r g1 ls g' -> sets_structs env cls (ms :: r) g (l :: ls) g'.
End Cleaner.

(** ** Names of targets *)
(** The targets a call makes, those of its body first: the name and the other name, if there is one. *)
Fixpoint makes (c : call) : list (str * option str) :=
  match c with
  | Call _ header body named =>
      flat_map makes body ++
      [match named with
       | None => (header, None)
       | Some s => (s, match header with [] => None | _ => Some header end)
       end]
  end.
Fixpoint uses (c : call) : list nat :=
  match c with Call fn _ body _ => fn :: flat_map uses body end.
(** A target has a name; no function is called within a call of that function. *)
Fixpoint plain_calls (c : call) : Prop :=
  match c with
  | Call fn header body named =>
      (named = None -> header <> []) /\ ~ In fn (flat_map uses body) /\
      fold_right and True (map plain_calls body)
  end.
Definition all_names (l : list (str * option str)) : list str :=
  flat_map (fun x => fst x :: match snd x with Some a => [a] | None => [] end) l.
(** No name is that of an earlier target or, made a full path, that of one. *)
Fixpoint fresh (cp : str -> str) (have new : list str) : Prop :=
  match new with
  | [] => True
  | y :: r => (forall x, In x have -> lower x <> lower y /\ lower x <> lower (cp y)) /\ fresh cp (have ++ [y]) r
  end.
