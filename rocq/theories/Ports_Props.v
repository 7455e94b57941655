(** * Properties of port assignment (C08) *)
From Verif Require Import Ports_Model Ports_Spec Ports_Proof.

(** C08. Whenever AssignPorts returns without error: pre-assigned ports are untouched, distinct
    binds have distinct ports, the two returned lists split the input, the preferred port of every
    bind is updated, and nothing else is changed. *)
Theorem C08_assign_ports_correct :
  ∀ f h binds h' pre asg,
    (∀ b, b ∈ binds → is_Some (h !! b)) →
    assign_ports f h binds = APorts h' pre asg →
    pre = preset h binds ∧ asg = unset h binds ∧
    (∀ b, b ∈ pre → port_of h' b = port_of h b) ∧
    (∀ b c, b ∈ binds → c ∈ binds → b ≠ c → port_of h' b ≠ port_of h' c) ∧
    (∀ b, b ∈ binds → pref_of h' b = port_of h' b) ∧
    (∀ b, b_key (deref h' b) = b_key (deref h b) ∧ b_addr (deref h' b) = b_addr (deref h b) ∧
          b_host (deref h' b) = b_host (deref h b)) ∧
    (∀ b, b ∉ binds → h' !! b = h !! b) ∧
    (wf_heap h → ∀ b, b ∈ binds → (port_of h' b < 65536)%N).
Proof. exact assign_ports_ok. Qed.
Print Assumptions C08_assign_ports_correct.

(** If every search has room below 65536 then AssignPorts terminates and every bind gets a
    non-zero port. *)
Theorem C08_assign_ports_terminates :
  ∀ h binds,
    (∀ b, b ∈ binds → is_Some (h !! b)) →
    NoDup (port_of h <$> preset h binds) →
    (∀ b, b ∈ unset h binds → (start_port h b + N.of_nat (length binds) ≤ 65536)%N) →
    ∃ h' pre asg, (∀ f, length binds ≤ f → assign_ports f h binds = APorts h' pre asg) ∧
      ∀ b, b ∈ binds → port_of h' b ≠ 0%N.
Proof. exact assign_ports_terminates. Qed.
Print Assumptions C08_assign_ports_terminates.

(** An error is returned exactly when two pre-assigned ports coincide, and names two such binds. *)
Theorem C08_assign_ports_conflict :
  ∀ f h binds,
    (¬ NoDup (port_of h <$> preset h binds) ↔ ∃ x y, assign_ports f h binds = AConflict x y) ∧
    (∀ x y, assign_ports f h binds = AConflict x y →
       x ∈ binds ∧ y ∈ binds ∧ port_of h x = port_of h y ∧ port_of h y ≠ 0%N).
Proof. exact assign_ports_conflict. Qed.
Print Assumptions C08_assign_ports_conflict.

Definition ex_heap : heap :=
  <[0 := Bind "a.bind" "a" "" 0 2000]> (<[1 := Bind "b.bind" "b" "" 2000 0]>
  (<[2 := Bind "c.bind" "c" "" 0 0]> (<[3 := Bind "d.bind" "d" "" 0 9000]> ∅))).

Example C08_nonvacuous :
  match assign_ports 10 ex_heap [0; 1; 2; 3] with
  | APorts h' pre asg => pre = [1] ∧ asg = [0; 2; 3] ∧
      port_of h' <$> [0; 1; 2; 3] = [2001; 2000; 2002; 9000]%N
  | _ => False
  end.
Proof. vm_compute. auto. Qed.
Example C08_nonvacuous_conflict :
  assign_ports 10 (<[2 := Bind "c.bind" "c" "" 2000 0]> ex_heap) [0; 1; 2; 3] = AConflict 1 2.
Proof. reflexivity. Qed.

(** Finding: the uint16 candidate wraps past 65535 and port 0, which means "unassigned", is handed
    out.  A bind that prefers 65535 ends without a port if 65535 is taken. *)
Theorem C08_nonzero_without_room_refuted :
  ∃ h binds h' pre asg,
    wf_heap h ∧ (∀ b, b ∈ binds → is_Some (h !! b)) ∧ NoDup (port_of h <$> preset h binds) ∧
    assign_ports 10 h binds = APorts h' pre asg ∧ ∃ b, b ∈ binds ∧ port_of h' b = 0%N.
Proof.
  exists (<[0 := Bind "a" "a" "" 65535 0]> (<[1 := Bind "b" "b" "" 0 65535]> ∅)), [0; 1].
  eexists _, _, _. split_and!.
  - intros p b [[_ <-]|[_ [[_ <-]|[_ H]]%lookup_insert_Some]]%lookup_insert_Some; [done|done|].
    by rewrite lookup_empty in H.
  - intros b Hb. apply elem_of_cons in Hb as [->|Hb]; [by eexists|].
    apply elem_of_list_singleton in Hb as ->. by eexists.
  - vm_compute. repeat constructor. set_solver.
  - vm_compute. reflexivity.
  - exists 1. split; [set_solver|]. vm_compute. reflexivity.
Qed.
Print Assumptions C08_nonzero_without_room_refuted.

(** Finding: if the ports are exhausted AssignPorts never returns, although the pre-assigned ports
    are distinct. *)
Theorem C08_always_terminates_refuted :
  ∃ h binds, wf_heap h ∧ (∀ b, b ∈ binds → is_Some (h !! b)) ∧
    NoDup (port_of h <$> preset h binds) ∧ ∀ f, assign_ports f h binds = ADiverge.
Proof. exact full_exhausted_ex. Qed.
Print Assumptions C08_always_terminates_refuted.
