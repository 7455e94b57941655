(** * Model of generated Go workspaces: plugins/golang/gogen/workspacebuilder.go, modulebuilder.go:92-100,
      plugins/golang/helpers.go:83-114, plugins/workflow/workflowspec/service.go:26-54 *)
From Verif Require Export Imports_Model.
Open Scope list_scope.

(** A go.mod file: the path of its module, its replace directives (old path to new path) and its requires. *)
Record modfile := Modfile { mf_path : string; mf_replace : gmap string string; mf_require : gmap string string }.

(** workspacebuilder.go:22-28 and the go.mod files in the subdirectories of the workspace on disk. [vis] is the
    VisitTracker (buildcontext.go:24-37).  The rest of the files that are copied is not modelled. *)
Record workspace := Workspace {
  module_dirs : gmap string string; modules : gmap string string; generated : gmap string string;
  disk : gmap string modfile; vis : gset string }.
Definition empty_workspace : workspace := Workspace ∅ ∅ ∅ ∅ ∅.

(** workspacebuilder.go:65-98.  [mkdir], [write]: CheckDir and WriteFile succeed.  The loop in lines 75-81 looks
    for a free subdirectory, but its result is not used afterwards.  The result is the subdirectory; WriteFile's
    error is returned along with it. *)
Definition create_module (w : workspace) (name : string) (mkdir write : bool) : workspace * option string :=
  match module_dirs w !! name with
  | Some _ => (w, None)
  | None =>
      let dir := last_comp name in
      if mkdir then
        (Workspace (<[name := dir]> (module_dirs w)) (<[dir := name]> (modules w)) (<[dir := name]> (generated w))
           (if write then <[dir := Modfile name ∅ ∅]> (disk w) else disk w) (vis w),
         if write then Some dir else None)
      else (w, None)
  end.

(** workspacebuilder.go:101-146.  [src]: the go.mod file of the module, if it can be read and parsed;
    [mkdir], [copy]: CheckDir and cp.Copy succeed. *)
Definition add_local_module (w : workspace) (short : string) (src : option modfile) (mkdir copy : bool) : workspace * option string :=
  match src with
  | None => (w, None)
  | Some mf =>
      let path := mf_path mf in
      match module_dirs w !! path with
      | Some s => if bool_decide (s = short) then (w, Some s) else (w, None)
      | None =>
          let w1 := Workspace (<[path := short]> (module_dirs w)) (modules w) (generated w) (disk w) (vis w) in
          match modules w1 !! short with
          | Some p => if bool_decide (p = path) then (w1, Some short) else (w1, None)
          | None =>
              let w2 := Workspace (module_dirs w1) (<[short := path]> (modules w1)) (generated w1) (disk w1) (vis w1) in
              if mkdir then
                (Workspace (module_dirs w2) (modules w2) (generated w2)
                   (if copy then <[short := mf]> (disk w2) else disk w2) (vis w2),
                 if copy then Some short else None)
              else (w2, None)
          end
      end
  end.

(** workspacebuilder.go:149-152 *)
Definition get_local_module (w : workspace) (path : string) : option string := module_dirs w !! path.

(** workspacebuilder.go:217-246: updateModfile.  [readable d]: go.mod in [d] can be read and parsed; [ok]: it can
    be formatted and written.  [others]: the other modules in some map order.  The result is [None] on error;
    go.mod is written at the end only. *)
Fixpoint add_replaces (readable : string → bool) (dk : gmap string modfile) (name : string)
    (others : list (string * string)) (acc : gmap string string) : option (gmap string string) :=
  match others with
  | [] => Some acc
  | (d, m) :: r =>
      if bool_decide (name = m) then add_replaces readable dk name r acc else
      if readable d then
        match dk !! d with
        | Some mf => add_replaces readable dk name r (<[mf_path mf := "../" +:+ d]> acc)
        | None => None
        end
      else None
  end.
Definition update_modfile (readable ok : string → bool) (order : list (string * string)) (dk : gmap string modfile) (d name : string)
    : option (gmap string modfile) :=
  if readable d then
    match dk !! d with
    | None => None
    | Some mf =>
        match add_replaces readable dk name order (mf_replace mf) with
        | None => None
        | Some rs => if ok d then Some (<[d := Modfile (mf_path mf) rs (mf_require mf)]> dk) else None
        end
    end
  else None.

(** workspacebuilder.go:183-212: Finish.  The errors of updateModfile and of go mod tidy are dropped; go mod tidy
    itself is not modelled.  [work]: go.work could be written and parsed.  The result: the directories listed in
    go.work (lines 171-176, in sorted order, here any) and the disk. *)
Definition finish (readable ok : string → bool) (work : bool) (order : list (string * string)) (w : workspace)
    : option (list string * gmap string modfile) :=
  if work then
    Some (order.*1, fold_left (λ dk dm, default dk (update_modfile readable ok order dk dm.1 dm.2)) order (disk w))
  else None.

(** A parsed module (goparser/parser.go ParsedModule): name, short name, its go.mod, version, whether it is local. *)
Record pmod := PMod { pm_name : string; pm_short : string; pm_file : option modfile; pm_version : string; pm_local : bool }.

(** buildcontext.go:28-37 *)
Definition ws_visited (w : workspace) (x : string) : workspace * bool :=
  (Workspace (module_dirs w) (modules w) (generated w) (disk w) ({[x]} ∪ vis w), bool_decide (x ∈ vis w)).

(** helpers.go:101-114, and workflowspec/service.go:45-54 for the two modules of a service.  It returns in the
    loop after the first module that it adds. *)
Fixpoint add_to_workspace (w : workspace) (mods : list pmod) : workspace * bool :=
  match mods with
  | [] => (w, true)
  | m :: r =>
      if pm_local m then
        let '(w1, v) := ws_visited w (pm_name m) in
        if v then add_to_workspace w1 r
        else let '(w2, res) := add_local_module w1 (pm_short m) (pm_file m) true true in
             (w2, bool_decide (is_Some res))
      else add_to_workspace w r
  end.

(** modulebuilder.go:93-100 and helpers.go:85-97 (the same in workflowspec/service.go:32-43): requires are added to
    a module; [rv] is the module's VisitTracker.  Writing go.mod succeeds. *)
Definition require (rq : list (string * string)) (name version : string) : list (string * string) * bool :=
  if bool_decide (version = "") then (rq, false) else (rq ++ [(name, version)], true).
Fixpoint add_to_module (rv : gset string) (rq : list (string * string)) (mods : list pmod) : gset string * list (string * string) * bool :=
  match mods with
  | [] => (rv, rq, true)
  | m :: r =>
      if pm_local m then add_to_module rv rq r else
      if bool_decide (pm_name m ∈ rv) then add_to_module rv rq r else
      let rv' := {[pm_name m]} ∪ rv in
      let '(rq', ok) := require rq (pm_name m) (pm_version m) in
      if ok then add_to_module rv' rq' r else (rv', rq', false)
  end.

(** What plugins call *)
Inductive wop :=
  | WCreate (name : string) (mkdir write : bool)
  | WLocal (short : string) (src : option modfile) (mkdir copy : bool).
Definition wstep (w : workspace) (o : wop) : workspace * option string :=
  match o with
  | WCreate n a b => create_module w n a b
  | WLocal s src a b => add_local_module w s src a b
  end.
Fixpoint wrun (w : workspace) (os : list wop) : workspace * list (option string) :=
  match os with
  | [] => (w, [])
  | o :: r => let '(w1, x) := wstep w o in let '(w2, xs) := wrun w1 r in (w2, x :: xs)
  end.
