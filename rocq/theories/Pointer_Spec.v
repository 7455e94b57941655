(** * What is expected of pointers *)
From Verif Require Export Pointer_Model Wiring_Spec.

(** The client-side modifiers that were added, in the order of the calls. *)
Definition src_added (os : list pop) : list string := omap (λ o, match o with PSrc m => Some m | _ => None end) os.

(** Following names: [path rets alias n ms e]: from [n], the aliases lead to the first of [ms]; from what
    was returned for that one to the next, and so on, and from the last to [e]. *)
Inductive client_path (s : wspec) (rets : list (string * string)) : string → list string → string → Prop :=
| cp_end n e : get_alias s n = Some e → client_path s rets n [] e
| cp_mod n m r ms e : get_alias s n = Some m → (m, r) ∈ rets → client_path s rets r ms e → client_path s rets n (m :: ms) e.
(** The server side: from each node to what was returned when it was added. *)
Inductive server_path (rets : list (string * string)) : string → list string → string → Prop :=
| sp_end n : server_path rets n [] n
| sp_mod m r ms e : (m, r) ∈ rets → server_path rets r ms e → server_path rets m (m :: ms) e.

(** What the call adds to the server side when it is made in wiring spec [s]. *)
Definition adds_dst (name : string) (s : wspec) (o : pop) : option string :=
  match o with
  | PDst m _ => Some m
  | PAddr a => get_address s a
  | PAddTo ns _ => Some (name +:+ "." +:+ ns)%string
  | _ => None
  end.
(** The node the call makes the meeting point of the two sides. *)
Definition sets_iface (s : wspec) (o : pop) : option string :=
  match o with
  | PDst m true => Some m
  | PAddr a => match get_address s a with Some _ => Some a | None => None end
  | _ => None
  end.
(** All the calls, each with the wiring spec it was made in. *)
Fixpoint in_specs (name : string) (st : state) (os : list pop) : list (wspec * pop) :=
  match os with
  | [] => []
  | o :: os => (ws st, o) :: in_specs name (pstep name st o) os
  end.
Definition dst_added (name : string) (st : state) (os : list pop) : list string :=
  omap (λ x, adds_dst name x.1 x.2) (in_specs name st os).
Definition ifaces (name : string) (st : state) (os : list pop) : list string :=
  omap (λ x, sets_iface x.1 x.2) (in_specs name st os).

(** The names that belong to the pointer once the modifiers [ms] are added. *)
Definition own_names (name : string) (ms : list string) : list string :=
  (name +:+ ".src")%string :: ((λ m, m +:+ ".ptr.src.next")%string <$> ms).
(** The names a call (re)defines besides those. *)
Definition touches (name : string) (o : pop) : list string :=
  match o with
  | PWiring o => [op_name o]
  | PAddTo ns _ => [(name +:+ "." +:+ ns)%string; ns]
  | _ => []
  end.
(** Nobody else redefines the pointer's own names. *)
Definition undisturbed (name : string) (os : list pop) : Prop :=
  ∀ o n, o ∈ os → n ∈ touches name o → n ∉ own_names name (src_added os).

(** The destination the server side ends at: with uniqueness the alias that CreatePointer makes for it. *)
Definition original_dst (name dst : string) (uniq : option nat) : string :=
  match uniq with Some _ => (name +:+ ".dst")%string | None => dst end.
