(** * What is expected of generated files and wrapper classes *)
From Verif Require Export WrapGen_Model.

(** What the wiring specification asked for. *)
Definition asked (w : inst) : iface * list string :=
  (inst_iface w, match w with
                 | Timeout _ _ p | Latency _ _ p | CircuitBreaker _ _ p | Retrier _ _ p | GrpcClient _ _ p | ThriftClient _ _ p => [p]
                 | ClientPool _ _ c n => [c; n]
                 end).
(** Wrappers whose parameters are written into the class. *)
Definition parameters_in_class (w : inst) : Prop := match w with CircuitBreaker _ _ _ | Retrier _ _ _ | ClientPool _ _ _ _ => True | _ => False end.
Definition same_plugin (w1 w2 : inst) : Prop :=
  match w1, w2 with
  | Timeout _ _ _, Timeout _ _ _ | Latency _ _ _, Latency _ _ _ | CircuitBreaker _ _ _, CircuitBreaker _ _ _ | Retrier _ _ _, Retrier _ _ _
  | ClientPool _ _ _ _, ClientPool _ _ _ _ | GrpcClient _ _ _, GrpcClient _ _ _ | ThriftClient _ _ _, ThriftClient _ _ _ => True
  | _, _ => False
  end.
(** IR nodes have unique names. *)
Definition names_unique (ws : list inst) : Prop := ∀ w1 w2, w1 ∈ ws → w2 ∈ ws → inst_name w1 = inst_name w2 → w1 = w2.
(** No two different interfaces of the module have the same name or base name. *)
Definition ifaces_unique (ws : list inst) : Prop := ∀ w1 w2, w1 ∈ ws → w2 ∈ ws →
  if_name (inst_iface w1) = if_name (inst_iface w2) ∨ if_base (inst_iface w1) = if_base (inst_iface w2) → inst_iface w1 = inst_iface w2.
(** No interface has both a gRPC and a Thrift client in the module. *)
Definition one_rpc (ws : list inst) : Prop := ∀ n1 n2 i a1 a2, GrpcClient n1 i a1 ∈ ws → ThriftClient n2 i a2 ∉ ws.
