(** * Model of pointers: blueprint/pkg/coreplugins/{pointer/pointer.go, pointer/visibility.go (the wiring part),
    address/wiring.go (Define, GetAddress), namespaceutil/namespace.go (AddNodeTo)}

    Everything these functions do to a wiring spec is a sequence of calls of its interface, modelled in
    Wiring_Model. *)
From Verif Require Export Wiring_Model.
Set Default Proof Using "Type".

(** The build functions these packages pass to Define, by what they get; [BUser] is any other. *)
Inductive build :=
| BPointer (src : string)            (* pointer.go:124-135: gets [src]; the deferred InstantiateDst is in Unique_Model *)
| BMeta (md : string)                (* visibility.go:49-55 *)
| BCheck (md name : string)          (* visibility.go:58-72 *)
| BEnter (ns next : string)          (* namespace.go:69-87 *)
| BUser (id : nat).
(** Property values: an address.AddressDef (its PointsTo), a *PointerDef (which pointer), a string, anything
    else (callstacks). *)
Inductive pval := VAddr (points_to : string) | VPtr (name : string) | VName (s : string) | VOther.
(** Node types; [None] in the wiring model is the nil type. *)
Notation wspec := (spec nat build pval).
Notation wop := (op nat build pval).

(** pointer.go:43-57 [PointerDef], without [name] and [srcHead], which never change. *)
Record ptr := Ptr { p_tail : string; p_iface : string; p_dhead : string; p_smods : list string; p_dmods : list string }.

(** What a call returns, for the callers to use in their build functions: the calls of AddSrcModifier with
    the name of the next node, those that add to the server side with the name of the previous one. *)
Record state := State { ws : wspec; pt : ptr; errs : list string; sret : list (string * string); dret : list (string * string) }.

Definition do_ops (s : wspec) (os : list wop) : wspec := fold_left step os s.

Section with_fuel.
  (** Enough for GetDef to follow the aliases of the spec (it loops otherwise, C04). *)
  Context (fuel : nat).

  (** visibility.go:35-74 [RequireUniqueness]; [vis] is the node type of the visibility. *)
  Definition require_uniqueness (s : wspec) (a : string) (vis : option nat) : wspec * list string :=
    match get_alias s a with
    | None => (s, [a])                                                                    (* 37-40 *)
    | Some name =>
        match get_def fuel s name with
        | Some (Some d) =>
            let md := (name +:+ ".visibility")%string in
            let check := (name +:+ ".uniqueness_check")%string in
            (do_ops s [ODefine md vis (Some (BMeta md)) None VOther;
                       ODefine check (wd_type d) (Some (BCheck md name)) None VOther;
                       OAlias a check], [])
        | _ => (s, [name])                                                                (* 43-46 *)
        end
    end.

  (** pointer.go:101-141 [CreatePointer]; [uniq]: opts.RequireUniqueness, [None] = nil. *)
  Definition create_pointer (s : wspec) (name dst : string) (ty : option nat) (uniq : option nat) : state :=
    let '(s, e, dst) :=
      match uniq with
      | None => (s, [], dst)
      | Some vis =>
          let d := (name +:+ ".dst")%string in
          let '(s, e) := require_uniqueness (step s (OAlias d dst)) d (Some vis) in (s, e, d)
      end in
    let src := (name +:+ ".src")%string in
    let s := do_ops s [OAlias src dst; ODefine name ty (Some (BPointer src)) None VOther; OSetProperty name "ptr" (VPtr name)] in
    State s (Ptr src dst dst [] [dst]) e [] [].

  (** pointer.go:160-167. *)
  Definition add_src (st : state) (m : string) : state :=
    let p := pt st in
    let tail := (m +:+ ".ptr.src.next")%string in
    State (do_ops (ws st) [OAlias (p_tail p) m; OAlias tail (p_iface p)])
          (Ptr tail (p_iface p) (p_dhead p) (p_smods p ++ [m]) (p_dmods p)) (errs st) (sret st ++ [(m, tail)]) (dret st).
  (** pointer.go:179-192. *)
  Definition add_dst (st : state) (m : string) (iface : bool) : state :=
    let p := pt st in
    State (if iface then step (ws st) (OAlias (p_tail p) m) else ws st)
          (Ptr (p_tail p) (if iface then m else p_iface p) m (p_smods p) (m :: p_dmods p)) (errs st) (sret st) (dret st ++ [(m, p_dhead p)]).
  (** address/wiring.go:134-138 [GetAddress]: a property of another type, or several, read as nil. *)
  Definition get_address (s : wspec) (a : string) : option string :=
    match get_property s a "addr" with Some (Some (VAddr t)) => Some t | _ => None end.
  (** pointer.go:201-216; without an address it returns "" and does nothing. *)
  Definition add_addr (st : state) (a : string) : state :=
    match get_address (ws st) a with
    | None => st
    | Some to =>
        let st := add_dst st to true in
        let p := pt st in
        State (step (ws st) (OAlias (p_tail p) a)) (Ptr (p_tail p) a (p_dhead p) (p_smods p) (p_dmods p)) (errs st) (sret st) (dret st)
    end.
  (** namespaceutil/namespace.go:46-91 [AddNodeTo] with this pointer as the child.  Simplified: the
      ReturnType option is left nil. *)
  Definition add_to (st : state) (name ns : string) (ty : nat) : state :=
    let m := (name +:+ "." +:+ ns)%string in
    let nxt := p_dhead (pt st) in
    let st := add_dst st m false in
    State (do_ops (ws st) [ODefine m (Some ty) (Some (BEnter ns nxt)) (Some (WOpts None true)) VOther; OAddProperty ns "Children" (VName nxt)])
          (pt st) (errs st) (sret st) (dret st).

  (** Calls that concern the pointer, and any other calls on the wiring spec. *)
  Inductive pop :=
  | PSrc (m : string)
  | PDst (m : string) (iface : bool)
  | PAddr (a : string)
  | PAddTo (ns : string) (ty : nat)
  | PWiring (o : wop).
  Definition pstep (name : string) (st : state) (o : pop) : state :=
    match o with
    | PSrc m => add_src st m
    | PDst m b => add_dst st m b
    | PAddr a => add_addr st a
    | PAddTo ns ty => add_to st name ns ty
    | PWiring o => State (step (ws st) o) (pt st) (errs st) (sret st) (dret st)
    end.
  Definition prun (name : string) (st : state) (os : list pop) : state := foldl (pstep name) st os.
End with_fuel.

(** address/wiring.go:30-61 [Define], as calls on the wiring spec; the three build functions are opaque. *)
Definition address_define (a points_to bind dial : string) (reach : option nat) : list wop :=
  [OSetProperty a "addr" (VAddr points_to); ODefine a reach (Some (BUser 0)) None VOther;
   ODefine bind reach (Some (BUser 1)) None VOther; ODefine dial reach (Some (BUser 2)) None VOther].
