(** * Model of the generated round-robin load balancer, plugins/loadbalancer/codegen.go:44-86 *)
From stdpp Require Export prelude list numbers.
Set Default Proof Using "Type".

Section lb.
  Context {C : Type}.

  (** codegen.go:49-54: the balancer's fields; [N] is a separate field from [Clients]. *)
  Record balancer := Balancer { lb_clients : list C; lb_idx : nat; lb_n : nat }.

  (** codegen.go:56-61 (constructor). *)
  Definition new_balancer (clients : list C) : balancer := Balancer clients 0 (length clients).

  (** codegen.go:64-70 [pickClient]; [None] is the panic of an out-of-range index.  The method holds
      the balancer's mutex, so concurrent picks are totally ordered and each is atomic. *)
  Definition pick_client (b : balancer) : option (C * balancer) :=
    match lb_clients b !! lb_idx b with
    | None => None
    | Some c => Some (c, Balancer (lb_clients b) ((lb_idx b + 1) mod lb_n b) (lb_n b))
    end.

  (** codegen.go:76-84: a request calls the picked client.  A history of requests is the list of
      threads issuing them, in the order in which they get the mutex; the result lists which client
      served which thread. *)
  Fixpoint serve (b : balancer) (reqs : list nat) : option (balancer * list (nat * C)) :=
    match reqs with
    | [] => Some (b, [])
    | t :: reqs' =>
        match pick_client b with
        | None => None
        | Some (c, b') =>
            match serve b' reqs' with
            | None => None
            | Some (b'', l) => Some (b'', (t, c) :: l)
            end
        end
    end.
End lb.
Arguments balancer : clear implicits.
