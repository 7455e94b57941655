(** * What replication should do *)
From Verif Require Export Replica_Model.
From stdpp Require Export list.
Open Scope string_scope.
Open Scope list_scope.

(** The modifiers that a call of a service has to pass: the client side in the order of the wiring spec, then the server side in the opposite order *)
Definition modifiers (d : deployed) : list hop := Through <$> d_client d ++ reverse (d_server d).
(** The way of the j-th call *)
Definition way (g : string) (n : nat) (ds : nat → deployed) (j : nat) : list hop :=
  let i := j mod n in modifiers (ds i) ++ [Reached (replica_name g i)].
(** Modifiers of a service have different names, none of them that of its client or RPC client *)
Definition distinct (d : deployed) : Prop := NoDup ("client" :: "grpc_client" :: d_client d ++ d_server d).
