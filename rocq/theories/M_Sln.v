(** Model of the solution that VSSolution() writes: Code/Tools/FBuild/FBuildCore/Graph/SLNNode.cpp Initialize 89-266 and GatherProjects 312-364,
    and Code/Tools/FBuild/FBuildCore/Helpers/SLNGenerator.cpp.  The lines of the file are values here, not text; the header, the defaults for
    configurations, their sorting and the test that every project has them are not modelled. *)
From Coq Require Import String Ascii List Arith Bool NArith.
From Verif Require Import M_Path M_Names M_Sort M_Dir M_Drv M_Xcode M_Vcx.
Import ListNotations.
Local Open Scope list_scope.

(** A project of the graph, SolutionFolder, SolutionDependency and SolutionConfig (SLNNode.h 24-78). *)
Record node := Node { pname : str; pguid : str }.
Record sfolder := SFolder { path : str; holds : list str; items : list str }.
Record sdep := SDep { who : list str; what : list str }.
Record config := Config { in_solution : str; in_project : str; build : list str; deploy : list str }.   (* "configuration|platform" *)
Record solution := Solution { projects : list str; sfolders : list sfolder; sdeps : list sdep; configs : list config }.

(** ToUpper of one character, AString.cpp. *)
Definition upper_char (c : ascii) : ascii := let n := nat_of_ascii c in if (97 <=? n) && (n <=? 122) then ascii_of_nat (n - 32) else c.
Definition upper (s : str) : str := map upper_char s.

(** *** Initialize *)
(** Canonicalize SolutionFolder paths, 139-147. *)
Definition canonical (s : str) : str := let t := to_back s in if ends_with t [back] then firstn (length t - 1) t else t.
(** Collapse duplicate SolutionFolders, 149-178. *)
Fixpoint merge (f : sfolder) (l : list sfolder) : list sfolder :=
  match l with
  | [] => [f]
  | x :: r => if teq (path x) (path f) then SFolder (path x) (holds x ++ holds f) (items x ++ items f) :: r else x :: merge f r
  end.
Definition collapse (l : list sfolder) : list sfolder :=
  fold_left (fun acc f => merge (SFolder (canonical (path f)) (holds f) (items f)) acc) l [].

(** The names of all projects in the order in which they are gathered, 180-224. *)
Definition mentioned (s : solution) (fs : list sfolder) : list str :=
  projects s ++ flat_map holds fs ++ flat_map (fun d => who d ++ what d) (sdeps s) ++ flat_map (fun c => build c ++ deploy c) (configs s).

Section G.
(** NodeGraph::FindNode (C18), restricted to projects; GetRelativePath to the directory of the solution; CRC32::Calc (C42). *)
Context (p : plat) (find : str -> option node) (rel : str -> str) (crc : str -> N).

(** GatherProject, SLNNode.cpp 312-344: nodes are compared by their address; here by their name, which no two nodes share (C18). *)
Fixpoint gather (names : list str) (acc : list node) : option (list node) :=
  match names with
  | [] => Some acc
  | n :: r => match find n with
              | None => None
              | Some q => gather r (if existsb (fun x => teq (pname x) (pname q)) acc then acc else acc ++ [q])
              end
  end.
(** VCXProjectNodeComp, 69-75. *)
Definition node_less (a b : node) : bool := less (pname a) (pname b).

(** FormatDeterministicProjectGUID, VSProjectGenerator.cpp 80-87, and ToUpper: "%08x" in upper case is "%08X". *)
Definition folder_guid (f : str) : str :=
  L "{" ++ hex8 (crc (map (fun c => if Ascii.eqb c (native p) then back else c) f)) ++ L "-6C94-4F93-BC2A-7F5284B7D434}".

(** *** The generator *)
Definition names (l : list str) (n : str) : bool := existsb (teq n) l.
(** The name that is shown, SLNGenerator.cpp 122-126.  [None]: the end comes before the start. *)
Definition base_name (n : str) : option str :=
  let b := match last_at (native p) n with Some k => S k | None => 0 end in
  let e := match last_at dot n with Some k => k | None => length n end in
  if e <? b then None else Some (firstn (e - b) (skipn b n)).
(** Manage dependencies, 153-175. *)
Definition guid_named (qs : list node) (n : str) : list str := match List.find (fun q => teq (pname q) n) qs with Some q => [pguid q] | None => [] end.
Definition depends (ds : list sdep) (qs : list node) (q : node) : list str :=
  flat_map (fun d => if names (who d) (pname q) then flat_map (guid_named qs) (what d) else []) ds.
(** A project in the listing: its name, its path, its identifier and those it depends on, 118-186. *)
Record listing := Listing { l_name : option str; l_path : str; l_guid : str; l_deps : list str }.
Definition list_project (s : solution) (qs : list node) (q : node) : listing :=
  Listing (base_name (pname q)) (if windows p then rel (pname q) else to_back (rel (pname q))) (upper (pguid q)) (depends (sdeps s) qs q).
(** The folders of a project, 188-206. *)
Definition project_to_folder (fs : list sfolder) (q : node) : list (str * str) :=
  flat_map (fun f => if names (holds f) (pname q) then [(upper (pguid q), folder_guid (path f))] else []) fs.

(** WriteSolutionFolderListings 211-236: the path and every part of it that ends before a backslash. *)
Fixpoint cuts (done s : str) : list str :=
  match s with [] => [] | c :: r => if Ascii.eqb c back then done :: cuts (done ++ [c]) r else cuts (done ++ [c]) r end.
Definition add_path (acc : list str) (f : str) : list str := if names acc f then acc else acc ++ [f].
Definition folder_paths (fs : list sfolder) : list str := fold_left (fun acc f => fold_left add_path (path f :: cuts [] (path f)) acc) fs [].
(** A folder in the listing, 238-286: its name, its identifier and the sections with its items. *)
Record flisting := FListing { f_name : str; f_guid : str; f_items : list (list str) }.
Definition last_part (f : str) : str := match last_at back f with Some k => skipn (S k) f | None => f end.
Definition shown_item (i : str) : str := if windows p then rel i else to_back (rel i).
Fixpoint sections (f : str) (fs : list sfolder) : option (list (list str)) :=
  match fs with
  | [] => Some []
  | x :: r =>
      match sections f r with
      | None => None
      | Some t => if teq (lower f) (lower (path x)) && negb (match items x with [] => true | _ => false end)
                  then match shell_sort less (items x) with Some l => Some (map shown_item l :: t) | None => None end
                  else Some t
      end
  end.
Definition list_folder (fs : list sfolder) (f : str) : option flisting :=
  match sections f fs with None => None | Some t => Some (FListing (last_part f) (folder_guid f) t) end.
(** WriteNestedProjects 381-425. *)
Definition parent_of (f : str) : list (str * str) :=
  match last_at (native p) f with Some k => [(folder_guid f, folder_guid (firstn k f))] | None => [] end.

(** WriteProjectConfigurationPlatforms 310-377: ActiveCfg, Build.0 and Deploy.0. *)
Inductive use := Active | Build | Deploy.
Definition named_i (l : list str) (n : str) : bool := existsb (fun x => teq (lower x) (lower n)) l.
Definition config_lines (cs : list config) (q : node) : list (str * str * use * str) :=
  flat_map (fun c =>
    (upper (pguid q), in_solution c, Active, in_project c)
    :: (if named_i (build c) (pname q) then [(upper (pguid q), in_solution c, Build, in_project c)] else [])
    ++ (if named_i (deploy c) (pname q) then [(upper (pguid q), in_solution c, Deploy, in_project c)] else [])) cs.

Record output := Output { o_projects : list listing; o_folders : list flisting; o_lines : list (str * str * use * str); o_nested : list (str * str) }.
(** GenerateSLN 32-64 of what Initialize has made. *)
Definition solve (s : solution) : option output :=
  let fs := collapse (sfolders s) in
  match gather (mentioned s fs) [] with
  | None => None
  | Some g =>
      match shell_sort node_less g, shell_sort less (folder_paths fs) with
      | Some qs, Some ps =>
          match each (list_folder fs) ps with
          | None => None
          | Some fl =>
              Some (Output (map (list_project s qs) qs) fl (flat_map (config_lines (configs s)) qs)
                           (flat_map (project_to_folder fs) qs ++ flat_map parent_of ps))
          end
      | _, _ => None
      end
  end.
End G.
