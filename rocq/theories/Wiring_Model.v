(** * Model of the wiring spec: blueprint/pkg/wiring/wiring.go

    The wiring spec is the user-facing object that records definitions, aliases and properties.
    Build functions, node types and property values are opaque to it, so they are type
    parameters here. *)
From stdpp Require Export strings gmap.
Set Default Proof Using "Type".

Section wiring.
  (** [T]: node types (Go [any] values used as type tags).  [B]: build functions.
      [V]: property values, which include the callstack recorded by [Define]. *)
  Context {T B V : Type}.

  (** wiring.go:70-80 [WiringOpts].  [None] for [ReturnType] models Go nil. *)
  Record wopts := WOpts { wo_ret : option T; wo_proxy : bool }.

  (** wiring.go:82-88 [WiringDef].  A def created by [SetProperty]/[AddProperty] alone has nil
      [NodeType] and nil [Build]: hence the options. *)
  Record wdef := WDef {
    wd_name : string;
    wd_type : option T;
    wd_build : option B;
    wd_props : gmap string (list V);
    wd_opts : wopts
  }.

  (** wiring.go:90-96 [wiringSpecImpl], without [name] (constant) and [errors] (see [add_error]
      below: the error list does not interact with the rest). *)
  Record spec := Spec {
    sp_defs : gmap string wdef;
    sp_aliases : gmap string string
  }.

  (** wiring.go:98-105 [NewWiringSpec]. *)
  Definition new_spec : spec := Spec ∅ ∅.

  (** wiring.go:167-169: the zero [WiringDef] with its name set and an empty property map. *)
  Definition blank_def (n : string) : wdef := WDef n None None ∅ (WOpts None false).

  (** wiring.go:163-176 [getDef(name, true)]: returns the def and the spec after a possible
      creation, which also deletes any alias of that name. *)
  Definition get_def_create (s : spec) (n : string) : wdef * spec :=
    match sp_defs s !! n with
    | Some d => (d, s)
    | None =>
        let d := blank_def n in
        (d, Spec (<[n := d]> (sp_defs s)) (delete n (sp_aliases s)))
    end.

  (** Writing through the [*WiringDef] pointer returned by [getDef]: the map entry changes. *)
  Definition write_def (s : spec) (n : string) (d : wdef) : spec :=
    Spec (<[n := d]> (sp_defs s)) (sp_aliases s).

  (** wiring.go:184-189: options handling of [Define]: options stick if none are passed, and
      [ReturnType] defaults to [nodeType] when nil. *)
  Definition define_opts (old : wopts) (options : option wopts) (t : option T) : wopts :=
    let o := default old options in
    match wo_ret o with
    | Some _ => o
    | None => WOpts t (wo_proxy o)
    end.

  (** wiring.go:180-191 [Define].  [callstack] is what [logging.GetCallstack()] returned. *)
  Definition define (s : spec) (n : string) (t : option T) (b : option B)
      (options : option wopts) (callstack : V) : spec :=
    let '(d, s1) := get_def_create s n in
    write_def s1 n
      (WDef (wd_name d) t b (<["callsite" := [callstack]]> (wd_props d))
            (define_opts (wd_opts d) options t)).

  (** wiring.go:208-214 [Alias]. *)
  Definition alias (s : spec) (a p : string) : spec :=
    Spec (delete a (sp_defs s)) (<[a := p]> (sp_aliases s)).

  (** wiring.go:225-229 [SetProperty]. *)
  Definition set_property (s : spec) (n k : string) (v : V) : spec :=
    let '(d, s1) := get_def_create s n in
    write_def s1 n (WDef (wd_name d) (wd_type d) (wd_build d) (<[k := [v]]> (wd_props d)) (wd_opts d)).

  (** wiring.go:232-235 [AddProperty]; appending to an absent key appends to a nil slice. *)
  Definition add_property (s : spec) (n k : string) (v : V) : spec :=
    let '(d, s1) := get_def_create s n in
    write_def s1 n (WDef (wd_name d) (wd_type d) (wd_build d)
                         (<[k := default [] (wd_props d !! k) ++ [v]]> (wd_props d)) (wd_opts d)).

  (** wiring.go:152-161 [resolveAlias].  The Go loop has no bound: [None] means that [fuel] was
      not enough. *)
  Fixpoint resolve_alias (fuel : nat) (s : spec) (n : string) : option string :=
    match fuel with
    | O => None
    | S f => match sp_aliases s !! n with
             | Some m => resolve_alias f s m
             | None => Some n
             end
    end.

  (** wiring.go:194-197 [GetDef]: [None] = the loop is still running when fuel runs out;
      [Some None] = Go returns nil. *)
  Definition get_def (fuel : nat) (s : spec) (n : string) : option (option wdef) :=
    match resolve_alias fuel s n with
    | Some m => Some (sp_defs s !! m)
    | None => None
    end.

  (** wiring.go:199-205 [Defs]; Go's map order is unspecified, [map_to_list] fixes one. *)
  Definition defs (s : spec) : list string := (map_to_list (sp_defs s)).*1.

  (** wiring.go:219-222 [GetAlias]. *)
  Definition get_alias (s : spec) (n : string) : option string := sp_aliases s !! n.

  (** wiring.go:120-122, 247-253 [GetProperties]: no alias resolution.  [None] = there is no def
      of that name, the destination is left untouched.  A missing key reads as the nil slice. *)
  Definition get_properties (s : spec) (n k : string) : option (list V) :=
    d ← sp_defs s !! n; Some (default [] (wd_props d !! k)).

  (** wiring.go:111-118, 238-244 [GetProperty]: outer [None] = no def, destination untouched;
      inner [None] = destination set to its zero value. *)
  Definition get_property (s : spec) (n k : string) : option (option V) :=
    d ← sp_defs s !! n;
    Some (match default [] (wd_props d !! k) with [v] => Some v | _ => None end).

  (** The mutating calls of the [WiringSpec] interface (wiring.go:40-60). *)
  Inductive op :=
  | ODefine (n : string) (t : option T) (b : option B) (o : option wopts) (callstack : V)
  | OAlias (a p : string)
  | OSetProperty (n k : string) (v : V)
  | OAddProperty (n k : string) (v : V).

  Definition step (s : spec) (o : op) : spec :=
    match o with
    | ODefine n t b o c => define s n t b o c
    | OAlias a p => alias s a p
    | OSetProperty n k v => set_property s n k v
    | OAddProperty n k v => add_property s n k v
    end.

  (** A history of calls on a fresh spec, oldest first. *)
  Definition run (h : list op) : spec := fold_left step h new_spec.
End wiring.

Arguments wdef : clear implicits.
Arguments wopts : clear implicits.
Arguments spec : clear implicits.
Arguments op : clear implicits.

(** wiring.go:266-268 [AddError] and 282-288 [Err]: errors accumulate; [Err] is nil iff there are
    none.  Note wiring.go:290-292: [BuildIR] does not consult [Err]. *)
Definition add_error {E} (errs : list E) (e : E) : list E := errs ++ [e].
Definition err {E} (errs : list E) : option (list E) :=
  match errs with [] => None | _ => Some errs end.
