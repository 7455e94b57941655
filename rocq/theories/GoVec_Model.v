(** * Model of vector-clock logging: plugins/govector (the generated client and server wrappers), runtime/plugins/govector/log.go

    A process has one logger (log.go:22-40), named after the process (plugins/govector/wiring.go:112-119) and shared by all of
    its requests; the GoVector library serialises its operations with a mutex.  The library is taken at its documented
    behaviour, which the logs in plugins/govector/example_logs confirm (see [example_logs] in GoVec_Props): each operation
    adds one to the process's own entry, a receive then takes the larger of each pair of entries, and the clock is logged.
    Messages below the library's priority threshold are not logged and are no events here. *)
From stdpp Require Export gmap list strings.
Set Default Proof Using "Type".

Notation clock := (gmap string nat).
Definition at_ (c : clock) (p : string) : nat := default 0 (c !! p).
(** govec tickClock *)
Definition tick (p : string) (c : clock) : clock := <[p := S (at_ c p)]> c.
(** vclock.Merge *)
Definition merge (c d : clock) : clock := union_with (λ x y, Some (max x y)) c d.

(** What a log entry is about.  The library's text does not name the call; the number is the model's. *)
Inductive what :=
| WInit                (* "Initialization Complete" *)
| WLocal (msg : string)
| WSend (k : nat)      (* "Preparing to make request for function ...": call [k] *)
| WServe (k : nat)     (* "Unpacking go vec context from client request" *)
| WReply (k : nat)     (* "Sending response to the client" *)
| WReturn (k : nat)    (* "Unpacking response from server" *)
| WAccept (k : nat)    (* as WServe, for a client that is not instrumented and sends no clock *)
| WFail (k : nat).     (* as WReturn, for a call that failed and brought no clock back *)
Record entry := Entry { e_proc : string; e_what : what; e_clock : clock }.

(** The server's side of a call: not begun; running; answered with this clock; lost with its process *)
Inductive served := Pending | Serving | Replied (c : clock) | Gone.
Record call := Call { c_from : option string; c_to : string; c_req : clock; c_srv : served; c_done : bool }.
(** The clocks of the running processes, the calls under way, and all log entries in the order of time *)
Record gst := Gst { g_clock : gmap string clock; g_calls : gmap nat call; g_log : list entry }.
Definition gst_init : gst := Gst ∅ ∅ [].

(** A process starts or crashes; logs; calls; a request arrives, from an instrumented client or another; the handler returns; the
    response arrives; or the client gets an error *)
Inductive gmove :=
| GStart (p : string) | GCrash (p : string) | GLog (p msg : string) | GCall (k : nat) (p q : string) | GServe (k : nat)
| GAccept (k : nat) (q : string) | GReply (k : nat) | GReturn (k : nat) | GFail (k : nat).

(** PrepareSend and LogLocalEvent ([d] = ∅), UnpackReceive ([d] = the clock received): log.go:43-52 and 55-112 *)
Definition record (p : string) (w : what) (d : clock) (s : gst) : option (clock * gst) :=
  match g_clock s !! p with
  | Some c => let c' := merge (tick p c) d in
              Some (c', Gst (<[p := c']> (g_clock s)) (g_calls s) (g_log s ++ [Entry p w c']))
  | None => None
  end.
Definition set_call (k : nat) (c : call) (s : gst) : gst := Gst (g_clock s) (<[k := c]> (g_calls s)) (g_log s).
(** Handlers and callers in process [p] are gone; requests and responses under way are not. *)
Definition crash_call (p : string) (c : call) : call :=
  Call (c_from c) (c_to c) (c_req c)
    (match c_srv c with Serving => if decide (c_to c = p) then Gone else Serving | v => v end)
    (c_done c || bool_decide (c_from c = Some p)).

Definition gstep (s : gst) (m : gmove) : gst :=
  match m with
  | GStart p => (* NewGoVecLogger: log.go:25-35 *)
      match g_clock s !! p with
      | None => Gst (<[p := tick p ∅]> (g_clock s)) (g_calls s) (g_log s ++ [Entry p WInit (tick p ∅)])
      | Some _ => s
      end
  | GCrash p => Gst (delete p (g_clock s)) (crash_call p <$> g_calls s) (g_log s)
  | GLog p msg => match record p (WLocal msg) ∅ s with Some (_, s) => s | None => s end
  | GCall k p q => (* ir_clientwrapper.go:183-184: GetSendCtx, then the request is under way *)
      match g_calls s !! k with
      | Some _ => s
      | None => match record p (WSend k) ∅ s with
                | Some (c, s) => set_call k (Call (Some p) q c Pending false) s
                | None => s
                end
      end
  | GServe k => (* ir_serverwrapper.go:209: UnpackReceiveCtx *)
      match g_calls s !! k with
      | Some (Call p q c Pending b) =>
          match record q (WServe k) c s with Some (_, s) => set_call k (Call p q c Serving b) s | None => s end
      | _ => s
      end
  | GAccept k q =>
      match g_calls s !! k with
      | Some _ => s
      | None => match record q (WAccept k) ∅ s with
                | Some (_, s) => set_call k (Call None q ∅ Serving true) s
                | None => s
                end
      end
  | GReply k => (* ir_serverwrapper.go:211 *)
      match g_calls s !! k with
      | Some (Call p q c Serving b) =>
          match record q (WReply k) ∅ s with Some (d, s) => set_call k (Call p q c (Replied d) b) s | None => s end
      | _ => s
      end
  | GReturn k => (* ir_clientwrapper.go:185 *)
      match g_calls s !! k with
      | Some (Call (Some p) q c (Replied d) false) =>
          match record p (WReturn k) d s with Some (_, s) => set_call k (Call (Some p) q c (Replied d) true) s | None => s end
      | _ => s
      end
  | GFail k => (* the same line, with an empty clock: the response was not received *)
      match g_calls s !! k with
      | Some (Call (Some p) q c v false) =>
          match record p (WFail k) ∅ s with Some (_, s) => set_call k (Call (Some p) q c v true) s | None => s end
      | _ => s
      end
  end.
Definition grun (ms : list gmove) : gst := foldl gstep gst_init ms.
