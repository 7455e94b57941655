(** * Specification: the traces an application should produce *)
From Verif Require Export Trace_Model.
Set Default Proof Using "Type".
Open Scope string_scope.
Open Scope list_scope.

(** The laws of JSON and of the SDK that are used *)
Record tracer_ok (T : tracer) : Prop := {
  ok_json : ∀ c, length (sc_trace c) = 16 → length (sc_span c) = 8 → ts_ok T (sc_state c) = true →
    let t := TCtx (hex (sc_trace c)) (hex (sc_span c)) (hex [sc_flags c]) (sc_state c) (sc_remote c) in
    dec T (enc T t) = Some t;
  ok_enc : ∀ t, enc T t ≠ [];
  ok_state : ts_ok T [] = true;
  ok_tid : ∀ n, length (new_tid T n) = 16 ∧ nonzero (new_tid T n) = true;
  ok_sid : ∀ n, length (new_sid T n) = 8 ∧ nonzero (new_sid T n) = true }.
(** The first [n] random identifiers are different. *)
Definition no_collision (T : tracer) (n : nat) : Prop :=
  ∀ i j, i < n → j < n → (new_tid T i = new_tid T j → i = j) ∧ (new_sid T i = new_sid T j → i = j).

(** A span with its events and its child spans *)
Inductive tree := Node (name : string) (events : list event) (kids : list tree).

Definition when {A} (b : bool) (l : list A) : list A := if b then l else [].

(** What a step of a handler contributes: events of the span of its context; child spans of that span; separate traces.
    - A call of an instrumented service is a client span (if wanted) over a server span.  An error is an event of the
      server's span if the handler returned it, and of the client's span if the client got it; without client span, it is
      an event of the caller's span.
    - A service that is not instrumented and is reached over the network separates what happens in it. *)
Fixpoint view (C : cfg) (a : act) : list event * list tree * list tree :=
  match a with
  | Log l m => ([EvLog l m], [], [])
  | Call svc meth n body fails =>
      let vs := map (view C) body in
      let events := concat (map (λ v, v.1.1) vs) in
      let kids := concat (map (λ v, v.1.2) vs) in
      let apart := concat (map snd vs) in
      let reached := negb (remote C svc && match n with RequestLost => true | _ => false end) in
      let err := fails || (remote C svc && match n with Delivered => false | _ => true end) in
      let server := when reached [Node (iface C svc ++ "Server_" ++ meth) (events ++ when fails [EvErr]) kids] in
      match inst C svc with
      | Some true => ([], [Node (base C svc ++ "Client_" ++ meth) (when err [EvErr]) server], when reached apart)
      | Some false => (when err [EvErr], server, when reached apart)
      | None => if remote C svc then ([], [], when reached (kids ++ apart)) else (events, kids, apart)
      end
  end.
(** The traces of a program that starts without a span: one for each outermost span *)
Definition traces (C : cfg) (l : list act) : list tree := concat (map (λ a, (view C a).1.2 ++ (view C a).2) l).

(** Whether the caller of a step gets an error *)
Definition errs (C : cfg) (a : act) : bool :=
  match a with
  | Log _ _ => false
  | Call svc _ n _ fails => fails || (remote C svc && match n with Delivered => false | _ => true end)
  end.

(** A tree with span identifiers *)
Inductive ltree (A : Type) := LNode (id : A) (name : string) (events : list event) (kids : list (ltree A)).
Arguments LNode {A} id name events kids.
Fixpoint erase {A} (t : ltree A) : tree := match t with LNode _ n e ks => Node n e (map erase ks) end.
Fixpoint ids {A} (t : ltree A) : list A := match t with LNode i _ _ ks => i :: concat (map ids ks) end.

(** What the collector learns about a span: its name, trace, identifier, parent and events *)
Record row := Row { r_name : string; r_trace : bytes; r_id : bytes; r_parent : option (bytes * bytes); r_events : list event }.
Definition row_of (s : span) : row :=
  Row (s_name s) (sc_trace (s_sc s)) (sc_span (s_sc s))
      (if sc_valid (s_parent s) then Some (sc_trace (s_parent s), sc_span (s_parent s)) else None) (s_events s).
(** The rows of a tree of trace [tid] whose root has this parent *)
Fixpoint rows (tid : bytes) (parent : option (bytes * bytes)) (t : ltree bytes) : list row :=
  match t with
  | LNode i n e ks => Row n tid i parent e :: concat (map (rows tid (Some (tid, i))) ks)
  end.

(** The services a step calls, at any depth *)
Fixpoint called (a : act) : list string :=
  match a with Log _ _ => [] | Call svc _ _ body _ => svc :: concat (map called body) end.
(** The network loses nothing. *)
Fixpoint undisturbed (a : act) : Prop :=
  match a with
  | Log _ _ => True
  | Call _ _ n body _ => n = Delivered ∧ (fix go l := match l with [] => True | a :: l => undisturbed a ∧ go l end) body
  end.
