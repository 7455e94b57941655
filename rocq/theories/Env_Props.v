(** * Properties of the generated .env files (C44) *)
From Verif Require Import Env_Model Env_Spec Env_Proof.
From Coq Require Import ZifyBool ZifyNat ZifyN Lia.
Open Scope list_scope.

(** C44. Addresses are ranked by the byte order of their names; after sourcing either file, the bind
    variable of an address is 0.0.0.0 and its dial variable is localhost (.local.env) or the service
    name (.env), all four with the port (initial port + rank) mod 65536. *)
Theorem C44_bind_and_dial_agree :
  ∀ ns order1 order2 port,
    key_order ns order1 → key_order ns order2 → one_each ns → vars_distinct ns → (port < 65536)%N →
    ∃ rank : string → nat,
      (∀ a a', mentioned ns a → mentioned ns a' → (rank a ≤ rank a' ↔ str_le a a')) ∧
      (∀ a, mentioned ns a → rank a < length order1) ∧
      let '(lo, gl) := generate_env_files ns order1 order2 port in
      ∀ a,
        (∀ k, CBind k a ∈ ns → source lo !! EnvVar k = Some ("0.0.0.0"%string, port_at port (rank a)) ∧
                               source gl !! EnvVar k = Some ("0.0.0.0"%string, port_at port (rank a))) ∧
        (∀ k, CDial k a ∈ ns → source lo !! EnvVar k = Some ("localhost"%string, port_at port (rank a)) ∧
                               source gl !! EnvVar k = Some (before_dot a, port_at port (rank a))).
Proof. exact env_assignment. Qed.
Print Assumptions C44_bind_and_dial_agree.

(** Variables of different addresses carry different ports as long as there are at most 65536
    addresses, and no port is 0 if the range stays below 65536. *)
Theorem C44_distinct_addresses_distinct_ports :
  ∀ ns order port b n n' k k' a a' h h' p p',
    key_order ns order → one_each ns → vars_distinct ns → (port < 65536)%N →
    (N.of_nat (length order) ≤ 65536)%N →
    n ∈ ns → n' ∈ ns → node_key n = Some k → node_key n' = Some k' →
    node_addr n = Some a → node_addr n' = Some a' → a ≠ a' →
    let f := generate_env b (match_nodes ns) order port in
    source f !! EnvVar k = Some (h, p) → source f !! EnvVar k' = Some (h', p') →
    p ≠ p' ∧ (0 < port → port + N.of_nat (length order) ≤ 65536 → port ≤ p ∧ 0 < p < port + N.of_nat (length order))%N.
Proof.
  intros ns order port b n n' k k' a a' h h' p p' Ho Hone Hv Hp Hlen Hn Hn' Hk Hk' Ha Ha' Hne f Hs Hs'.
  destruct (env_assignment ns order order port Ho Ho Hone Hv Hp) as (rank&Hr&Hlt&Hall).
  cbn in Hall.
  assert (Hm : mentioned ns a) by by exists n. assert (Hm' : mentioned ns a') by by exists n'.
  assert (Hpa : ∀ n k a h p, n ∈ ns → node_key n = Some k → node_addr n = Some a →
     source f !! EnvVar k = Some (h, p) → p = port_at port (rank a)).
  { clear -Hall. intros n k a h p Hn Hk Ha Hs. destruct (Hall a) as [Hb Hd]. subst f.
    destruct n as [x y|x y|x]; cbn in *; simplify_eq;
      [destruct (Hb _ Hn) as [H1 H2]|destruct (Hd _ Hn) as [H1 H2]]; destruct b; congruence. }
  pose proof (Hpa _ _ _ _ _ Hn Hk Ha Hs) as ->. pose proof (Hpa _ _ _ _ _ Hn' Hk' Ha' Hs') as ->.
  pose proof (Hlt _ Hm). pose proof (Hlt _ Hm'). split.
  - intros E. apply (port_at_inj port _ _ (N.of_nat (length order))) in E; [|lia..].
    apply Hne. apply (anti_symm str_le); apply Hr; try done; lia.
  - intros Hp0 Hp1. unfold port_at. rewrite N.mod_small by lia. lia.
Qed.
Print Assumptions C44_distinct_addresses_distinct_ports.

(** The files do not depend on Go's map iteration order. *)
Theorem C44_order_independent :
  ∀ ns o1 o2 o1' o2' port,
    key_order ns o1 → key_order ns o2 → key_order ns o1' → key_order ns o2' →
    generate_env_files ns o1 o2 port = generate_env_files ns o1' o2' port.
Proof.
  intros ns o1 o2 o1' o2' port H1 H2 H3 H4. unfold generate_env_files, generate_env.
  by rewrite (sort_strings_eq o1 o1'), (sort_strings_eq o2 o2') by (by eapply order_perm).
Qed.
Print Assumptions C44_order_independent.

(** Nothing but the bind and dial variables of the given nodes is ever set. *)
Theorem C44_no_other_variable :
  ∀ ns order port b v h p,
    key_order ns order → (port < 65536)%N →
    source (generate_env b (match_nodes ns) order port) !! v = Some (h, p) →
    ∃ k a, EnvVar k = v ∧
      ((CBind k a ∈ ns ∧ h = "0.0.0.0"%string) ∨ (CDial k a ∈ ns ∧ h = host_for b a)).
Proof. exact env_no_extra. Qed.
Print Assumptions C44_no_other_variable.

Definition ex_nodes : list cnode :=
  [CDial "user.grpc.dial_addr" "user.grpc.addr"; CBind "user.grpc.bind_addr" "user.grpc.addr";
   COther "timeout"; CBind "cart_db.bind_addr" "cart_db.addr"; CDial "cart_db.dial_addr" "cart_db.addr"]%string.
Definition ex_order : list string := ["user.grpc.addr"; "cart_db.addr"]%string.

Example C44_nonvacuous :
  key_order ex_nodes ex_order ∧ one_each ex_nodes ∧ vars_distinct ex_nodes ∧
  generate_env_files ex_nodes ex_order (reverse ex_order) 12345 =
    ([Eline "CART_DB_BIND_ADDR" "0.0.0.0" 12345; Eline "CART_DB_DIAL_ADDR" "localhost" 12345;
      Eline "USER_GRPC_BIND_ADDR" "0.0.0.0" 12346; Eline "USER_GRPC_DIAL_ADDR" "localhost" 12346],
     [Eline "CART_DB_BIND_ADDR" "0.0.0.0" 12345; Eline "CART_DB_DIAL_ADDR" "cart_db" 12345;
      Eline "USER_GRPC_BIND_ADDR" "0.0.0.0" 12346; Eline "USER_GRPC_DIAL_ADDR" "user" 12346])%string.
Proof.
  split_and!; [split|split| |].
  - apply (bool_decide_unpack _). vm_compute. exact I.
  - intros a. unfold mentioned, ex_order, ex_nodes. split.
    + intros [->| [->|[]%elem_of_nil]%elem_of_cons]%elem_of_cons; eexists; split; [left| |do 3 right; left|]; done.
    + intros (n&Hn&Ha). repeat (apply elem_of_cons in Hn as [->|Hn]; [cbn in Ha; simplify_eq; set_solver|]). set_solver.
  - intros k k' a H1 H2. unfold ex_nodes in *.
    repeat (apply elem_of_cons in H1 as [H1|H1]; [simplify_eq|]);
    repeat (apply elem_of_cons in H2 as [H2|H2]; [by simplify_eq|]); set_solver.
  - intros k k' a H1 H2. unfold ex_nodes in *.
    repeat (apply elem_of_cons in H1 as [H1|H1]; [simplify_eq|]);
    repeat (apply elem_of_cons in H2 as [H2|H2]; [by simplify_eq|]); set_solver.
  - intros n n' k k' H1 H2 E1 E2 Heq. unfold ex_nodes in *.
    repeat (apply elem_of_cons in H1 as [->|H1];
      [repeat (apply elem_of_cons in H2 as [->|H2]; [cbn in E1, E2; simplify_eq; vm_compute in Heq; done|]); set_solver|]).
    set_solver.
  - vm_compute. reflexivity.
Qed.
Example C44_text :
  env_text (generate_env false (match_nodes ex_nodes) ex_order 65535) =
  ("CART_DB_BIND_ADDR=0.0.0.0:65535" +:+ String (ascii_of_N 10)
   ("CART_DB_DIAL_ADDR=cart_db:65535" +:+ String (ascii_of_N 10)
   ("USER_GRPC_BIND_ADDR=0.0.0.0:0" +:+ String (ascii_of_N 10)
   ("USER_GRPC_DIAL_ADDR=user:0" +:+ String (ascii_of_N 10) ""))))%string.
Proof. vm_compute. reflexivity. Qed.

(** Finding: the port wraps past 65535, so an address can be told to use port 0. *)
Theorem C44_ports_nonzero_refuted :
  ∃ ns order port k, key_order ns order ∧ one_each ns ∧ vars_distinct ns ∧ (0 < port < 65536)%N ∧
    source (generate_env false (match_nodes ns) order port) !! EnvVar k = Some ("0.0.0.0"%string, 0%N).
Proof.
  exists ex_nodes, ex_order, 65535%N, "user.grpc.bind_addr"%string.
  destruct C44_nonvacuous as (?&?&?&_). split_and!; try done.
Qed.
Print Assumptions C44_ports_nonzero_refuted.

(** Finding: when two bind configs share an address name, only the last one gets a variable. *)
Theorem C44_every_bind_has_a_variable_refuted :
  ∃ ns order k a, key_order ns order ∧ vars_distinct ns ∧ CBind k a ∈ ns ∧
    source (generate_env false (match_nodes ns) order 12345) !! EnvVar k = None.
Proof.
  exists [CBind "x.bind" "x"; CBind "y.bind" "x"]%string, ["x"]%string, "x.bind"%string, "x"%string.
  split_and!; [split| | |].
  - apply (bool_decide_unpack _). vm_compute. exact I.
  - intros a. unfold mentioned. split.
    + intros ->%elem_of_list_singleton. eexists. split; [left|]; done.
    + intros (n&Hn&Ha). repeat (apply elem_of_cons in Hn as [->|Hn]; [cbn in Ha; simplify_eq; set_solver|]). set_solver.
  - intros n n' k k' H1 H2 E1 E2 Heq.
    repeat (apply elem_of_cons in H1 as [->|H1];
      [repeat (apply elem_of_cons in H2 as [->|H2]; [cbn in E1, E2; simplify_eq; vm_compute in Heq; done|]); set_solver|]).
    set_solver.
  - left.
  - vm_compute. reflexivity.
Qed.
Print Assumptions C44_every_bind_has_a_variable_refuted.

(** Finding: two keys that differ only in punctuation or case share one variable, so the bind
    variable of one address may carry the port of another. *)
Theorem C44_variable_names_collide_refuted :
  ∃ ns order k k' a a', key_order ns order ∧ one_each ns ∧ CBind k a ∈ ns ∧ CBind k' a' ∈ ns ∧ a ≠ a' ∧
    source (generate_env false (match_nodes ns) order 12345) !! EnvVar k =
    source (generate_env false (match_nodes ns) order 12345) !! EnvVar k'.
Proof.
  exists [CBind "x.y.bind" "x.y"; CBind "x_y.bind" "x_y"]%string, ["x.y"; "x_y"]%string, "x.y.bind"%string, "x_y.bind"%string, "x.y"%string, "x_y"%string.
  split_and!; [split|split| | | |].
  - apply (bool_decide_unpack _). vm_compute. exact I.
  - intros a. unfold mentioned. split.
    + intros [->| ->%elem_of_list_singleton]%elem_of_cons; eexists; split; [left| |right; left|]; done.
    + intros (n&Hn&Ha). repeat (apply elem_of_cons in Hn as [->|Hn]; [cbn in Ha; simplify_eq; set_solver|]). set_solver.
  - intros k k' a H1 H2.
    repeat (apply elem_of_cons in H1 as [H1|H1]; [simplify_eq|]);
    repeat (apply elem_of_cons in H2 as [H2|H2]; [by simplify_eq|]); set_solver.
  - intros k k' a H1 H2. set_solver.
  - left.
  - right; left.
  - done.
  - vm_compute. reflexivity.
Qed.
Print Assumptions C44_variable_names_collide_refuted.
