(** * Specification of the trace of a request *)
From stdpp Require Export relations.
From Verif Require Export XTrace_Model.
Set Default Proof Using "Type".

(** Event [i] is a direct cause of event [j], according to the events reported *)
Definition causes (l : list event) (i j : nat) : Prop := ∃ e, e ∈ l ∧ e_id e = j ∧ i ∈ e_parents e.
Definition leads (l : list event) : nat → nat → Prop := tc (causes l).

(** What must be reported, in the order of a run that executes statements one after the other *)
Definition when (b : bool) (l : list (path * kind)) : list (path * kind) := if b then l else [].
Fixpoint reported (p : path) (h : handler) : list (path * kind) :=
  match h with
  | Handler body err => [(p, KStart)] ++ reported_body p 0 body ++ when err [(p, KError)] ++ [(p, KEnd)]
  end
with reported_body (p : path) (n : nat) (body : stmts) : list (path * kind) :=
  match body with
  | Done => []
  | Log _ msg rest => [(p, KLog n msg)] ++ reported_body p (S n) rest
  | Call _ f h rest =>
      let q := p ++ [n] in
      [(q, KClientStart)] ++
      match f with RequestLost => [] | _ => reported q h end ++
      match f, h with
      | Arrives, Handler _ err => when err [(q, KClientError)] ++ [(q, KClientEnd true)]
      | _, _ => [(q, KClientError); (q, KClientEnd false)]
      end ++ reported_body p (S n) rest
  end.
(** Statements use contexts they have at hand. *)
Fixpoint well_handler (h : handler) : Prop := match h with Handler body _ => well 1 body end
with well (n : nat) (body : stmts) : Prop :=
  match body with
  | Done => True
  | Log i _ rest => i < n ∧ well (S n) rest
  | Call i _ h rest => i < n ∧ well_handler h ∧ well n rest
  end.

(** How an event must be linked to others.  [is l q k]: the identifiers of the events of kind [k] at [q] *)
Definition is (l : list event) (q : path) (k : kind) (i : nat) : Prop :=
  ∃ e, e ∈ l ∧ e_path e = q ∧ e_kind e = k ∧ e_id e = i.
Definition linked (l : list event) (e : event) : Prop :=
  let q := e_path e in
  match e_kind e with
  | KTask => e_parents e = []
  | KStart => (* the client's call, unless it is the request itself *)
      q = [] ∨ ∃ c, is l q KClientStart c ∧ e_parents e = [c]
  | KLog _ _ | KError | KEnd => ∃ c, is l q KStart c ∧ leads l c (e_id e)
  | KClientStart => ∃ p n c, q = p ++ [n] ∧ is l p KStart c ∧ leads l c (e_id e)
  | KClientError => ∃ c, is l q KClientStart c ∧ leads l c (e_id e)
  | KClientEnd got =>
      (∃ c, is l q KClientStart c ∧ leads l c (e_id e)) ∧
      (got = true → ∃ c, is l q KEnd c ∧ leads l c (e_id e))
  end.
