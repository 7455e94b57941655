(** * What a deployment should consist of

    Stated from the wiring spec alone (who uses whom, what is deployed where), without running anything. *)
From Verif Require Export Deploy_Model.

Section spec.
  Context (c : cfg).

  (** The services that run inside process [q]: those added to it, and whatever they use that is not
      deployed on its own. *)
  Inductive lives (q : nat) : nat → Prop :=
  | lives_child i : i ∈ c_children c q → lives q i
  | lives_part i j : lives q i → j ∈ c_args c i → c_remote c j = false → lives q j.
  (** The services that something in process [q] is constructed with. *)
  Definition uses (q j : nat) : Prop := ∃ i, lives q i ∧ j ∈ c_args c i.
  (** The processes that have to exist when [roots] are requested. *)
  Inductive needed (roots : list nat) : nat → Prop :=
  | needed_root q : q ∈ roots → needed roots q
  | needed_call q j : needed roots q → uses q j → c_remote c j = true → needed roots (c_home c j).

  (** Wiring specs that make sense: every deployed service is added to its process, services that are not
      deployed on their own do not use each other in a circle, none of them is used from two processes, and
      there are finitely many. *)
  Record well_formed (roots : list nat) : Prop := {
    wf_children q i : i ∈ c_children c q → c_remote c i = true ∧ c_home c i = q;
    wf_home i : c_remote c i = true → i ∈ c_children c (c_home c i);
    wf_acyclic : ∃ rank : nat → nat,
      ∀ i j, j ∈ c_args c i → c_remote c j = false → rank j < rank i;
    wf_unshared q q' i : needed roots q → needed roots q' → lives q i → lives q' i → q = q';
    wf_finite : ∃ procs svcs : list nat,
      ∀ q, needed roots q → q ∈ procs ∧ ∀ j, uses q j → j ∈ svcs }.

  (** What is in process [q]. *)
  Inductive in_process (q : nat) : nm → Prop :=
  | in_metric : in_process q (Metric q)
  | in_logger : in_process q (Logger q)
  | in_handler i : lives q i → in_process q (Handler i)
  | in_wrapper i k : lives q i → k < c_ndst c i → in_process q (Dst i k)
  | in_server i : i ∈ c_children c q → in_process q (Server i)
  | in_client j k : uses q j → k < c_nsrc c j → in_process q (Src j k)
  | in_rpc_client j : uses q j → c_remote c j = true → in_process q (RpcClient j).
  (** The configuration it is given: where its own services listen and where the others are. *)
  Inductive configured (q : nat) : nm → Prop :=
  | conf_bind i : i ∈ c_children c q → configured q (Bind i)
  | conf_dial j : uses q j → c_remote c j = true → configured q (Dial j).

  (** What is in the application next to the processes: for every server its address and where it listens, for
      every service that is called remotely where to find it, and for every service the record that keeps it
      to one process. *)
  Inductive in_application (roots : list nat) : nm → Prop :=
  | app_process q : needed roots q → in_application roots (Proc q)
  | app_address q i : needed roots q → i ∈ c_children c q → in_application roots (Addr i)
  | app_bind q i : needed roots q → configured q (Bind i) → in_application roots (Bind i)
  | app_dial q j : needed roots q → configured q (Dial j) → in_application roots (Dial j)
  | app_visibility q i : needed roots q → lives q i → in_application roots (Vis i).

  (** The nodes a call goes through: on the server side, then on the client side. *)
  Definition server_path (q i : nat) : list ref :=
    (λ k, (Some q, Dst i k)) <$> rev (seq 0 (c_ndst c i)).
  Definition handler_path (q i : nat) : list ref := server_path q i ++ [(Some q, Handler i)].
  Definition client_path (q j : nat) : list ref :=
    ((λ k, (Some q, Src j k)) <$> seq 0 (c_nsrc c j)) ++
    (if c_remote c j then [(Some q, RpcClient j)] else handler_path q j).
  (** Every node of the path holds the next one. *)
  Definition linked (s : st) (l : list ref) : Prop :=
    ∀ k a b, l !! k = Some a → l !! S k = Some b → ∃ more, heap s !! a = Some (b :: more).

  (** The IR that BuildApplicationIR returns for these processes. *)
  Definition built (roots : list nat) (s : st) : Prop :=
    ∃ r n, ∀ fuel, n ≤ fuel → build_app c (Proc <$> roots) fuel = Ok r s.
End spec.
