(** * Model of sets of parsed modules, plugins/golang/goparser/moduleset.go

    Parsing itself (parser.go:123-226) is an oracle that depends on the directory and on the current state of the file
    system; [GoSrc_Model] models what happens inside a package.  The version of a module is left out.  Parsed modules are
    shared by reference: they live in a heap and sets refer to them by number. *)
From stdpp Require Export strings gmap list.
Set Default Proof Using "Type".

(** parser.go:38-48: name, directory, packages (by full name; the contents is a token) and IsLocal *)
Record pmod := PMod { pm_name : string; pm_dir : string; pm_pkgs : gmap string nat; pm_local : bool }.

(** What can be read from a directory: a module name and packages, or an error *)
Definition fsys := string → option (string * gmap string nat).

(** moduleset.go:12-16 *)
Record mset := MSet { ms_modules : gmap string nat; ms_dirs : gmap string nat; ms_parent : option nat }.

(** The sets created so far, the modules parsed so far and the global variable parsedModules (61) *)
Record world := World { w_fs : fsys; w_heap : list pmod; w_cache : gmap string nat; w_sets : list mset }.
Definition world0 (fs : fsys) : world := World fs [] ∅ [].

(** 19-25 *)
Definition new_set (w : world) (parent : option nat) : world :=
  World (w_fs w) (w_heap w) (w_cache w) (w_sets w ++ [MSet ∅ ∅ parent]).

(** 83-88: the loop over the parents.  A parent is created before its children, so its number is smaller: the number of
    the set is enough fuel. *)
Fixpoint in_parents (fuel : nat) (sets : list mset) (p : option nat) (d : string) : option nat :=
  match fuel, p with
  | S fuel, Some i =>
      match sets !! i with
      | Some s => match ms_dirs s !! d with Some m => Some m | None => in_parents fuel sets (ms_parent s) d end
      | None => None
      end
  | _, _ => None
  end.

(** filepath.Clean *)
Section clean.
Context (clean : string → string).

(** parser.go:123-166 *)
Definition parse_module (w : world) (d : string) : option pmod :=
  match w_fs w (clean d) with
  | Some (n, ps) => Some (PMod n (clean d) ps true)
  | None => None
  end.

(** 73-109: one directory.  [None]: an error is returned; parsedModules may have grown before. *)
Definition add_dir (i : nat) (s : mset) (w : world) (news : list nat) (srcDir : string) : world * option (list nat) :=
  let d := clean srcDir in
  match ms_dirs s !! d with
  | Some _ => (w, Some news)
  | None =>
      match w_cache w !! d with
      | Some m => (w, Some (news ++ [m]))
      | None =>
          let found :=
            match in_parents i (w_sets w) (ms_parent s) d with
            | Some m => Some (w, m)
            | None =>
                match parse_module w d with
                | Some x => Some (World (w_fs w) (w_heap w ++ [x]) (<[d := length (w_heap w)]> (w_cache w)) (w_sets w), length (w_heap w))
                | None => None
                end
            end in
          match found with
          | None => (w, None)
          | Some (w', m) =>
              match w_heap w' !! m with
              | Some x => match ms_modules s !! pm_name x with Some _ => (w', None) | None => (w', Some (news ++ [m])) end
              | None => (w', None)
              end
          end
      end
  end.
Fixpoint add_dirs (i : nat) (s : mset) (w : world) (news : list nat) (ds : list string) : world * option (list nat) :=
  match ds with
  | [] => (w, Some news)
  | d :: r => match add_dir i s w news d with
              | (w', Some news') => add_dirs i s w' news' r
              | (w', None) => (w', None)
              end
  end.
(** 112-115 *)
Definition save (heap : list pmod) (s : mset) (m : nat) : mset :=
  match heap !! m with
  | Some x => MSet (<[pm_name x := m]> (ms_modules s)) (<[pm_dir x := m]> (ms_dirs s)) (ms_parent s)
  | None => s
  end.
(** 69-117.  The boolean says that there was no error. *)
Definition add_modules (w : world) (i : nat) (ds : list string) : world * bool :=
  match w_sets w !! i with
  | None => (w, false)
  | Some s =>
      match add_dirs i s w [] ds with
      | (w', Some news) => (World (w_fs w') (w_heap w') (w_cache w') (<[i := foldl (save (w_heap w')) s news]> (w_sets w')), true)
      | (w', None) => (w', false)
      end
  end.

(** What a call that returns a module or a package ends with.  [RNil]: nil without an error. *)
Inductive mres := RMod (m : nat) | RNil | RErr | RPanic.

(** 51-56 *)
Definition add_module (w : world) (i : nat) (d : string) : world * mres :=
  match add_modules w i [d] with
  | (w', true) => (w', match w_sets w' !! i with Some s => match ms_dirs s !! d with Some m => RMod m | None => RNil end | None => RNil end)
  | (w', false) => (w', RErr)
  end.
Definition set_local (w : world) (m : nat) (b : bool) : world :=
  World (w_fs w) (alter (λ x, PMod (pm_name x) (pm_dir x) (pm_pkgs x) b) m (w_heap w)) (w_cache w) (w_sets w).
(** 31-38; module.go:14-21 for the information *)
Definition add (w : world) (i : nat) (d : string) (local : bool) : world * mres :=
  match add_module w i d with
  | (w', RMod m) => (set_local w' m local, RMod m)
  | (w', RNil) => (w', RPanic)
  | r => r
  end.

(** 142-148: the loop over the modules, in the order given *)
Fixpoint search (heap : list pmod) (name : string) (l : list (string * nat)) : option (nat * nat) :=
  match l with
  | [] => None
  | (mn, m) :: r =>
      if String.prefix mn name then
        match heap !! m with
        | Some x => match pm_pkgs x !! name with Some p => Some (m, p) | None => search heap name r end
        | None => search heap name r
        end
      else search heap name r
  end.
(** The package found, with its module *)
Inductive pres := PPkg (m p : nat) | PErr | PPanic.
(** 140-175.  [ord i l] is the order in which the range statement visits the modules of set [i]; [find] is FindPackageModule
    (module.go:48-64): the directory and whether the module is local.  The number of the set plus one is enough fuel. *)
Fixpoint get_package (fuel : nat) (ord : nat → list (string * nat) → list (string * nat)) (find : string → option (string * bool))
    (w : world) (i : nat) (name : string) : world * pres :=
  match fuel, w_sets w !! i with
  | S fuel, Some s =>
      match search (w_heap w) name (ord i (map_to_list (ms_modules s))) with
      | Some (m, p) => (w, PPkg m p)
      | None =>
          match ms_parent s with
          | Some j => get_package fuel ord find w j name
          | None =>
              match find name with
              | None => (w, PErr)
              | Some (d, local) =>
                  match add_module w i d with
                  | (w', RMod m) =>
                      let w'' := set_local w' m local in
                      match w_heap w' !! m with
                      | Some x => match pm_pkgs x !! name with Some p => (w'', PPkg m p) | None => (w'', PErr) end
                      | None => (w'', PErr)
                      end
                  | (w', RNil) => (w', PPanic)
                  | (w', _) => (w', PErr)
                  end
              end
          end
      end
  | _, _ => (w, PErr)
  end.

(** ** Histories: the public functions, and changes of the file system in between *)
Inductive mop :=
| NewSet (parent : option nat)
| AddMods (i : nat) (ds : list string)
| AddInfo (i : nat) (d : string) (local : bool)
| GetPkg (i : nat) (name : string) (ord : nat → list (string * nat) → list (string * nat)) (find : string → option (string * bool))
| Files (fs : fsys).
Inductive mreply := RSet (i : nat) | ROk (b : bool) | RInfo (r : mres) | RPkg (r : pres) | RFiles.
(** A parent that does not exist cannot be passed: the new set then has none. *)
Definition mstep (w : world) (o : mop) : world * mreply :=
  match o with
  | NewSet p => (new_set w (p ← p; if bool_decide (p < length (w_sets w)) then Some p else None), RSet (length (w_sets w)))
  | AddMods i ds => let '(w', b) := add_modules w i ds in (w', ROk b)
  | AddInfo i d b => let '(w', r) := add w i d b in (w', RInfo r)
  | GetPkg i n ord find => let '(w', r) := get_package (S i) ord find w i n in (w', RPkg r)
  | Files fs => (World fs (w_heap w) (w_cache w) (w_sets w), RFiles)
  end.
Definition mrun (w : world) (os : list mop) : world := fold_left (λ w o, (mstep w o).1) os w.
End clean.
