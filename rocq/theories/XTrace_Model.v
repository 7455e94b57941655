(** * Model of X-Trace instrumentation: plugins/xtrace (the generated client and server wrappers), runtime/plugins/xtrace

    A context carries baggage: the task (trace) it belongs to and the identifiers of the events that come last.  The tracing
    library is taken at its documented behaviour; identifiers are random in the code and do not collide.  How it treats an
    event without a task, and whether starting a task reports an event, are left open ([lib]). *)
From stdpp Require Export list strings numbers.
Set Default Proof Using "Type".

Record lib := Lib { reports_untraced : bool; start_reports : bool }.
Record bag := Bag { b_task : option nat; b_last : list nat }.
Definition no_bag : bag := Bag None [].

(** What an event is about: the message, and the call by its position in the tree of calls (the model's) *)
Inductive kind :=
| KTask | KStart | KError | KEnd                       (* server: "F start", the error, "F end" *)
| KClientStart | KClientError | KClientEnd (got : bool) (* client: "F client call start", "F client call end"; whether the response arrived *)
| KLog (n : nat) (msg : string).                       (* the handler's [n]th statement *)
Notation path := (list nat).
Record event := Event { e_id : nat; e_task : option nat; e_parents : list nat; e_path : path; e_kind : kind }.

(** Identifiers given out so far, and the events reported *)
Record xst := Xst { x_next : nat; x_events : list event }.

(** client.Log and LogWithTags: xtrace.go:32-39 *)
Definition report (p : path) (k : kind) (b : bag) (s : xst) : bag * xst :=
  (Bag (b_task b) [x_next s], Xst (S (x_next s)) (x_events s ++ [Event (x_next s) (b_task b) (b_last b) p k])).
Definition xlog (L : lib) (p : path) (k : kind) (b : bag) (s : xst) : bag * xst :=
  match b_task b with
  | Some _ => report p k b s
  | None => if reports_untraced L then report p k b s else (b, s)
  end.
(** client.StartTask: xtrace.go:42-44 *)
Definition start_task (L : lib) (p : path) (s : xst) : bag * xst :=
  let b := Bag (Some (x_next s)) [] in let s := Xst (S (x_next s)) (x_events s) in
  if start_reports L then report p KTask b s else (b, s).
(** localbaggage.Merge: xtrace.go:52-54.  The lists stand for sets. *)
Definition xmerge (b c : bag) : bag :=
  Bag (match b_task b with Some t => Some t | None => b_task c end) (b_last b ++ b_last c).

(** A handler: its statements, and whether it returns an error.  A statement logs, or calls, with some context at hand: the
    handler's argument (0) or what its earlier log statements returned (1, 2, ...).  As contexts are immutable and events have
    fresh identifiers, the statements may as well run at the same time. *)
Inductive fate := Arrives | ResponseLost | RequestLost.
Inductive handler := Handler (body : stmts) (err : bool)
with stmts := Done | Log (i : nat) (msg : string) (rest : stmts) | Call (i : nat) (f : fate) (h : handler) (rest : stmts).

Definition ctx_at (cs : list bag) (i : nat) : bag := default no_bag (cs !! i).

(** The server wrapper around a handler (ir_xtrace_server_wrapper.go:223-242), given the baggage received; returns the baggage
    sent back.  The context of a request carries nothing else. *)
Fixpoint serve (L : lib) (p : path) (h : handler) (b : bag) (s : xst) : bag * xst :=
  match h with
  | Handler body err =>
      let '(b, s) := match b_task b with Some _ => (b, s) | None => start_task L p s end in
      let '(b, s) := xlog L p KStart b s in
      let s := exec L p 0 body [b] s in
      let '(b, s) := if err then xlog L p KError b s else (b, s) in
      xlog L p KEnd b s
  end
(** The body of the handler at [p], from its [n]th statement on, with the contexts at hand *)
with exec (L : lib) (p : path) (n : nat) (body : stmts) (cs : list bag) (s : xst) : xst :=
  match body with
  | Done => s
  | Log i msg rest => (* runtime/plugins/xtrace/log.go:45-53: nothing happens without a task *)
      let b := ctx_at cs i in
      let '(b, s) := match b_task b with Some _ => report p (KLog n msg) b s | None => (b, s) end in
      exec L p (S n) rest (cs ++ [b]) s
  | Call i f h rest => (* the client wrapper: ir_xtrace_client_wrapper.go:195-209; the caller's context is not changed *)
      let q := p ++ [n] in
      let '(b, s) := xlog L q KClientStart (ctx_at cs i) s in
      let '(r, s) := match f with RequestLost => (no_bag, s) | _ => serve L q h b s end in
      let got := match f with Arrives => true | _ => false end in
      let b := if got then xmerge b r else b in
      let failed := match h with Handler _ err => err || negb got end in
      let '(b, s) := if failed : bool then xlog L q KClientError b s else (b, s) in
      let '(_, s) := xlog L q (KClientEnd got) b s in
      exec L p (S n) rest cs s
  end.

(** The events of a request to an instrumented service from a client that sends no baggage, when [n] identifiers are given out.
    Events of other requests have other identifiers. *)
Definition trace (L : lib) (h : handler) (n : nat) : list event := x_events (snd (serve L [] h no_bag (Xst n []))).
