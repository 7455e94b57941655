(** * Specification vocabulary for the .env files (C44) *)
From Verif Require Import Env_Model.
Open Scope list_scope.

(** What a shell knows after sourcing a file: later lines override earlier ones. *)
Definition source (ls : list eline) : gmap string (string * N) :=
  fold_left (λ e l, <[el_var l := (el_host l, el_port l)]> e) ls ∅.

(** The addresses mentioned by the nodes. *)
Definition node_addr (n : cnode) : option string :=
  match n with CBind _ a | CDial _ a => Some a | COther _ => None end.
Definition node_key (n : cnode) : option string :=
  match n with CBind k _ | CDial k _ => Some k | COther _ => None end.
Definition mentioned (ns : list cnode) (a : string) : Prop := ∃ n, n ∈ ns ∧ node_addr n = Some a.

(** Go may range over the map's keys in any order, each key once. *)
Definition key_order (ns : list cnode) (order : list string) : Prop :=
  NoDup order ∧ ∀ a, a ∈ order ↔ mentioned ns a.

(** Every address has at most one bind node and one dial node, and no two nodes have the same
    environment variable. *)
Definition one_each (ns : list cnode) : Prop :=
  (∀ k k' a, CBind k a ∈ ns → CBind k' a ∈ ns → k = k') ∧
  (∀ k k' a, CDial k a ∈ ns → CDial k' a ∈ ns → k = k').
Definition vars_distinct (ns : list cnode) : Prop :=
  ∀ n n' k k', n ∈ ns → n' ∈ ns → node_key n = Some k → node_key n' = Some k' →
    EnvVar k = EnvVar k' → n = n'.

(** The [i]-th uint16 port counting from [port]. *)
Definition port_at (port : N) (i : nat) : N := ((port + N.of_nat i) mod 65536)%N.

(** The host name a client should dial. *)
Definition host_for (localhost : bool) (a : string) : string :=
  if localhost then "localhost"%string else before_dot a.
