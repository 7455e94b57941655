(** * Model of the generated clients and servers: plugins/grpc/grpccodegen/{clientgen,servergen}.go,
      plugins/thrift/thriftcodegen/{clientgen,servergen}.go, plugins/http/httpcodegen/{clientgen,servergen}.go *)
From stdpp Require Export pretty.
From Verif Require Export Rpc_Model.
Set Default Proof Using "Type".
Open Scope list_scope.

(** What a method of the service returns. *)
Inductive reply := Returns (rets : list gval) | Fails (e : string).
(** What the caller of the generated client gets. *)
Inductive result := Success (rets : list (option gval)) | Error (e : string) | Crash.

(** One run of the service: its arguments, and the deadline of the context it gets (a time, if any). *)
Record run := Run { run_args : list (option gval); run_deadline : option nat }.

(** What the network and the time do to a call: the request or the response may get lost, with an error;
    the HTTP transport may send the (GET) request again after a lost response; the context may have expired when
    the response arrives. *)
Inductive fault := NoFault | RequestLost (e : string) | ResponseLost (e : string).
Record net := Net { net_fault : fault; net_resends : nat; net_ctx : option string }.

Section call.
  Context (cd : code) (round32 : N → N) (utf8 : string → bool).
  (** The service: its reply may depend on the runs before.  [crash]: the error of a call whose server crashed,
      [badmsg]: of a message that could not be encoded; [status]: gRPC wraps the error of the service. *)
  Context (svc : list run → run → reply) (crash badmsg : string) (status : string → string).

  (** grpccodegen/servergen.go:92-103, thriftcodegen/servergen.go:109-119: unmarshall, call, marshall.  The
      result: what the stub of the client gets (a response, or the client's unmarshalling of it crashing, or an
      error), and the runs of the service. *)
  Inductive stub := Response (w : list (option gval)) | BadResponse | StubError (e : string).
  Definition serve (p : plugin) (rts : list ty) (dl : option nat) (hist : list run) (us : list (option gval)) : stub * list run :=
    let r := Run us dl in
    (match svc hist r with
     | Fails e => StubError (match p with Grpc => status e | Thrift => e end)
     | Returns rets =>
         match transmit p cd round32 utf8 rts rets with
         | Delivered ws => Response ws
         | ReceiverPanics => BadResponse
         | SenderPanics => StubError crash
         | NotSent | Impossible => StubError badmsg
         end
     end, [r]).

  (** The call of the stub: the message, the network and the server. *)
  Definition stub_call (p : plugin) (n : net) (ats rts : list ty) (dl : option nat) (hist : list run) (vs : list gval) : option (stub * list run) :=
    match transmit p cd round32 utf8 ats vs with
    | SenderPanics => None
    | NotSent | Impossible => Some (StubError badmsg, [])
    | ReceiverPanics => Some (StubError (match net_fault n with RequestLost e => e | _ => crash end), [])
    | Delivered us =>
        match net_fault n with
        | RequestLost e => Some (StubError e, [])
        | ResponseLost e => Some (StubError e, (serve p rts dl hist us).2)
        | NoFault => Some (serve p rts dl hist us)
        end
    end.

  (** grpccodegen/clientgen.go:81-103; the deadline of the context, at most [timeout] from now, goes with the
      request. *)
  Definition grpc_call (timeout now : nat) (n : net) (ats rts : list ty) (dl : option nat) (hist : list run) (vs : list gval) : result * list run :=
    let dl' := Some (match dl with Some d => d `min` (now + timeout) | None => now + timeout end) in
    match stub_call Grpc n ats rts dl' hist vs with
    | None => (Crash, [])
    | Some (s, rs) =>
        (match s with
         | StubError e => Error e
         | Response ws => match net_ctx n with Some e => Error e | None => Success ws end
         | BadResponse => match net_ctx n with Some e => Error e | None => Crash end
         end, rs)
    end.

  (** thriftcodegen/clientgen.go:115-136; the context does not go with the request.  A stub that returns an error
      returns no response. *)
  Definition thrift_call (n : net) (ats rts : list ty) (dl : option nat) (hist : list run) (vs : list gval) : result * list run :=
    match stub_call Thrift n ats rts None hist vs with
    | None => (Crash, [])
    | Some (s, rs) =>
        (match s with
         | StubError _ => match net_ctx n with Some e => Error e | None => Error "Response object is nil" end
         | Response ws => Success ws
         | BadResponse => Crash
         end, rs)
    end.

  (** encoding/json, per type; [dec] of an empty text fails. *)
  Context (enc : ty → gval → option string) (dec : ty → string → option gval) (jsonerr : string).

  (** httpcodegen/clientgen.go:77-88: a value in the query; strings as they are. *)
  Definition http_encode (t : ty) (v : gval) : option string :=
    match t, v with
    | TBasic BString, VB (VStr s) => Some s
    | _, _ => enc t v
    end.
  Definition http_query (params : list (string * ty)) (vs : list gval) : option (list (string * string)) :=
    mapM (λ pv : (string * ty) * gval, s ← http_encode pv.1.2 pv.2; Some (pv.1.1, s)) (zip params vs).
  (** httpcodegen/servergen.go:92-106. *)
  Definition http_decode (t : ty) (s : string) : option (option gval) :=
    match t with
    | TBasic BString => Some (Some (VB (VStr s)))
    | _ => if String.eqb s "" then Some None else Some <$> dec t s
    end.
  Definition http_params (params : list (string * ty)) (q : list (string * string)) : option (list (option gval)) :=
    mapM (λ nt : string * ty, http_decode nt.2 (default "" (lookup_field nt.1 q))) params.

  (** httpcodegen/servergen.go:107-121: status and body; the context is a new one; an encoding error leaves the
      body empty. *)
  Definition http_serve (rts : list ty) (hist : list run) (us : list (option gval)) : N * option (list string) * run :=
    let r := Run us None in
    (match svc hist r with
     | Fails e => (500%N, None)
     | Returns rets => (200%N, mapM (λ tv : ty * gval, enc tv.1 tv.2) (zip rts rets))
     end, r).

  (** httpcodegen/clientgen.go:96-122. *)
  Definition http_result (rts : list ty) (st : N) (body : option (list string)) : result :=
    if (200 <=? st)%N && (st <? 300)%N then
      match body with
      | None => Error jsonerr
      | Some ss => match mapM (λ ts : ty * string, dec ts.1 ts.2) (zip rts ss) with Some ws => Success (Some <$> ws) | None => Error jsonerr end
      end
    else Error ("StatusCode was " +:+ pretty st).

  (** The runs whose responses got lost before the request was sent again. *)
  Fixpoint resend (k : nat) (rts : list ty) (hist : list run) (us : list (option gval)) : list run :=
    match k with
    | 0 => []
    | S k => let r := (http_serve rts hist us).2 in r :: resend k rts (hist ++ [r]) us
    end.

  Definition http_call (n : net) (params : list (string * ty)) (rts : list ty) (dl : option nat) (hist : list run) (vs : list gval) : result * list run :=
    match http_query params vs with
    | None => (Error jsonerr, [])
    | Some q =>
        match net_fault n with
        | RequestLost e => (Error e, [])
        | f =>
            match http_params params q with
            | None => (http_result rts 500 None, [])
            | Some us =>
                let before := resend (net_resends n) rts hist us in
                let '(st, body, r) := http_serve rts (hist ++ before) us in
                (match f with ResponseLost e => Error e | _ => http_result rts st body end, before ++ [r])
            end
        end
    end.
End call.
