(** * C73: the deployment that is built from a wiring spec *)
From Verif Require Import Deploy_Spec Deploy_Proof.

(** Three services deployed on their own in two processes, calling each other in a circle; service 0 has a
    server wrapper and uses service 2 in its own process, which in turn uses a backend. *)
Definition ex_cfg : cfg :=
  Cfg (λ i, match i with 0 => [1; 2; 3] | 1 => [3; 0] | 2 => [4] | _ => [] end)
      (λ i, match i with 4 => 0 | _ => 2 end)
      (λ i, match i with 0 => 1 | _ => 0 end)
      (λ i, match i with 0 | 1 | 3 => true | _ => false end)
      (λ i, match i with 1 | 3 => 1 | _ => 0 end)
      (λ q, match q with 0 => [0] | 1 => [1; 3] | _ => [] end).
Lemma ex_lives q i : lives ex_cfg q i → (q = 0 ∧ i ∈ [0; 2; 4]) ∨ (q = 1 ∧ i ∈ [1; 3]).
Proof.
  induction 1 as [i Hi|i j _ IH Hj Hr].
  - destruct q as [|[|q]]; simpl in Hi; [left|right|]; [split; [done|set_solver]..|by apply elem_of_nil in Hi].
  - destruct IH as [[-> Hi]|[-> Hi]]; [left|right]; (split; [done|]);
      repeat (apply elem_of_cons in Hi as [->|Hi]; [simpl in Hj|]); try by apply elem_of_nil in Hi.
    all: repeat (apply elem_of_cons in Hj as [->|Hj]; [first [done|set_solver]|]); by apply elem_of_nil in Hj.
Qed.
Example ex_well_formed : well_formed ex_cfg [0].
Proof.
  split.
  - intros q i Hi. destruct q as [|[|q]]; simpl in Hi; [| |by apply elem_of_nil in Hi];
      repeat (apply elem_of_cons in Hi as [->|Hi]; [done|]); by apply elem_of_nil in Hi.
  - intros i Hi. destruct i as [|[|[|[|i]]]]; try done; simpl; set_solver.
  - exists (λ i, match i with 0 => 2 | 1 => 2 | 2 => 1 | _ => 0 end). intros i j Hj Hr.
    destruct i as [|[|[|i]]]; simpl in Hj;
      repeat (apply elem_of_cons in Hj as [->|Hj]; [first [done|simpl; lia]|]); by apply elem_of_nil in Hj.
  - intros q q' i _ _ [[-> Hi]|[-> Hi]]%ex_lives [[-> Hi']|[-> Hi']]%ex_lives; try done; set_solver.
  - exists [0; 1], [0; 1; 2; 3; 4]. intros q Hq. split.
    + destruct Hq as [q Hq|q j _ _ Hr]; [set_solver|]. destruct j as [|[|[|[|j]]]]; simpl; set_solver.
    + intros j (i&Hi&Hj). destruct i as [|[|[|i]]]; simpl in Hj; set_solver.
Qed.
Example ex_needed : needed ex_cfg [0] 0 ∧ needed ex_cfg [0] 1.
Proof.
  assert (needed ex_cfg [0] 0) as H by (constructor; set_solver). split; [done|].
  apply (needed_call ex_cfg [0] 0 1); [done| |done]. exists 0. split; [constructor; set_solver|simpl; set_solver].
Qed.
Example ex_uses : lives ex_cfg 0 4 ∧ uses ex_cfg 0 1 ∧ uses ex_cfg 1 0.
Proof.
  split_and!.
  - apply (lives_part _ _ 2); [apply (lives_part _ _ 0); [constructor|..]|..]; try done; simpl; set_solver.
  - exists 0. split; [constructor; set_solver|simpl; set_solver].
  - exists 1. split; [constructor; set_solver|simpl; set_solver].
Qed.

(** C73: building the IR of a wiring spec that makes sense succeeds (and terminates). *)
Theorem C73_build_succeeds c roots : well_formed c roots → ∃ s, built c roots s.
Proof. intros WF. destruct (build_ok c roots WF) as (s&H&_). by exists s. Qed.
Example ex_built : ∃ s, built ex_cfg [0] s.
Proof. apply C73_build_succeeds, ex_well_formed. Qed.

(** C73: the application has exactly the processes that are requested or called from them, with the addresses
    they need, each once. *)
Theorem C73_application c roots s :
  well_formed c roots → built c roots s →
  ∃ app, spaces s !! None = Some app ∧ NoDup (nodes app) ∧
    (∀ r, r ∈ nodes app ↔ ∃ m, r = (None, m) ∧ in_application c roots m) ∧
    (∀ q, is_Some (spaces s !! Some q) ↔ needed c roots q).
Proof.
  intros WF Hb. destruct (built_BInv c roots WF s Hb) as [B Q].
  destruct (v_none _ _ _ (b_inv _ _ _ _ B)) as [app Happ]. exists app. split_and!; [done| | |].
  - by eapply f_nodup.
  - intros r. by eapply f_app.
  - intros q. by apply f_needed.
Qed.
(** C73: every process contains exactly the services that live in it with their server wrappers, the servers of
    the services added to it, and the clients of the services it uses, each once. *)
Theorem C73_process_contents c roots s q x :
  well_formed c roots → built c roots s → spaces s !! Some q = Some x →
  NoDup (nodes x) ∧ ∀ r, r ∈ nodes x ↔ ∃ m, r = (Some q, m) ∧ in_process c q m.
Proof.
  intros WF Hb Hx. destruct (built_BInv c roots WF s Hb) as [B Q].
  split; [by eapply f_nodup|]. intros r. by eapply f_nodes.
Qed.
(** C73: the configuration a process takes is exactly the address it listens on for each service added to it
    and the address of each remote service it uses, each once. *)
Theorem C73_process_configuration c roots s q x :
  well_formed c roots → built c roots s → spaces s !! Some q = Some x →
  NoDup (edges x) ∧ ∀ r, r ∈ edges x ↔ ∃ m, r = (None, m) ∧ configured c q m.
Proof.
  intros WF Hb Hx. destruct (built_BInv c roots WF s Hb) as [B Q].
  split; [by eapply f_nodup|]. intros r. by eapply f_edges.
Qed.
(** C73: a service is constructed once in the whole application. *)
Theorem C73_one_instance c roots s q q' x x' i r r' :
  well_formed c roots → built c roots s →
  spaces s !! Some q = Some x → spaces s !! Some q' = Some x' →
  r ∈ nodes x → r' ∈ nodes x' → r.2 = Handler i → r'.2 = Handler i → r = r' ∧ q = q'.
Proof.
  intros WF Hb Hx Hx' Hr Hr' E E'.
  destruct (C73_process_contents _ _ _ _ _ WF Hb Hx) as [_ H].
  destruct (C73_process_contents _ _ _ _ _ WF Hb Hx') as [_ H'].
  apply H in Hr as (m&->&Hm). apply H' in Hr' as (m'&->&Hm'). simpl in *. subst.
  inversion Hm; subst. inversion Hm'; subst.
  destruct (C73_application _ _ _ WF Hb) as (_&_&_&_&Hn).
  assert (q = q') as ->; [|done].
  eapply (wf_unshared _ _ WF); [apply Hn; by exists x|apply Hn; by exists x'|done|done].
Qed.
(** C73: a service holds, for each of its arguments and in their order, the outermost client wrapper of that
    argument in its own process; every wrapper holds the next; the last one holds the gRPC client, or, when the
    argument is not deployed on its own, the argument's server wrappers and then the service itself. *)
Theorem C73_arguments c roots s q i :
  well_formed c roots → built c roots s → needed c roots q → lives c q i →
  ∃ rs, heap s !! (Some q, Handler i) = Some rs ∧
    Forall2 (λ j r, head (client_path c q j) = Some r ∧ linked s (client_path c q j)) (c_args c i) rs.
Proof.
  intros WF Hb Hq Hl. destruct (built_BInv c roots WF s Hb) as [B Q].
  apply (f_needed c roots WF s B Q) in Hq.
  eexists. split; [by apply (f_handler c roots WF s B Q)|].
  apply Forall2_fmap_r, Forall_Forall2_diag, Forall_forall. intros j Hj.
  destruct (f_client_path c roots WF s B Q q j) as (l&E&Hlk).
  { apply (f_uses c roots WF s B Q); [done|]. by exists i. }
  by rewrite E in *.
Qed.
(** C73: the gRPC client of a remote service dials the address that the one server of that service binds, and that
    server, in the process the service was added to, leads through all the server wrappers to the service. *)
Theorem C73_remote_calls c roots s q j :
  well_formed c roots → built c roots s → needed c roots q → uses c q j → c_remote c j = true →
  ∃ r, heap s !! (Some q, RpcClient j) = Some [(None, Addr j); (None, Dial j)] ∧
       served s !! j = Some (Some (c_home c j), Server j) ∧
       heap s !! (Some (c_home c j), Server j) = Some [r; (None, Addr j); (None, Bind j)] ∧
       head (handler_path c (c_home c j) j) = Some r ∧
       linked s (handler_path c (c_home c j) j) ∧
       needed c roots (c_home c j).
Proof.
  intros WF Hb Hq Hu Hr. destruct (built_BInv c roots WF s Hb) as [B Q].
  assert (needed c roots (c_home c j)) as Hh by by eapply needed_call.
  pose proof Hq as Hq'. apply (f_needed c roots WF s B Q) in Hq'.
  pose proof Hh as Hh'. apply (f_needed c roots WF s B Q) in Hh'.
  destruct (f_server_heap c roots WF s B Q (c_home c j) j Hh') as (l&r&E&Hlk&Hheap);
    [by apply (wf_home _ _ WF)|].
  exists r. split_and!; [..|done].
  - by apply (f_rpc_heap c roots WF s B Q).
  - by apply (f_served c roots WF s B Q j q).
  - exact Hheap.
  - by rewrite E.
  - done.
Qed.

(** C73: that nothing local is shared is needed: when two processes use a service that is not deployed on its
    own, building fails, even though everything else about the wiring spec is fine. *)
Definition shared_cfg : cfg :=
  Cfg (λ i, match i with 0 => [1; 2] | 1 => [2] | _ => [] end) (λ _, 1) (λ _, 0)
      (λ i, match i with 0 | 1 => true | _ => false end) (λ i, i) (λ q, match q with 0 => [0] | 1 => [1] | _ => [] end).
Definition fails (r : res) : bool := match r with Err _ => true | _ => false end.
Lemma shared_fails_30 : fails (run shared_cfg 30 30 (start [Proc 0])) = true.
Proof. by vm_compute. Qed.
Lemma fails_Err r : fails r = true → ∃ s, r = Err s.
Proof. destruct r; [done|eauto|done]. Qed.
Lemma fails_more c roots n :
  fails (run c n n (start roots)) = true → ∃ s n, ∀ fuel, n ≤ fuel → build_app c roots fuel = Err s.
Proof.
  intros [s E]%fails_Err. exists s, n. intros fuel Hf. unfold build_app.
  destruct (le_run c n fuel n fuel (start roots) Hf Hf) as [H|H]; congruence.
Qed.
Theorem C73_sharing_refuted :
  lives shared_cfg 0 2 ∧ lives shared_cfg 1 2 ∧ needed shared_cfg [0] 0 ∧ needed shared_cfg [0] 1 ∧
  (∀ s, ¬ built shared_cfg [0] s) ∧
  ∃ s n, ∀ fuel, n ≤ fuel → build_app shared_cfg [Proc 0] fuel = Err s.
Proof.
  assert (lives shared_cfg 0 0) as L0 by (constructor; simpl; set_solver).
  assert (lives shared_cfg 1 1) as L1 by (constructor; simpl; set_solver).
  assert (needed shared_cfg [0] 0) as N0 by (constructor; set_solver).
  destruct (fails_more shared_cfg [Proc 0] 30 shared_fails_30) as (s0&n0&HE).
  split_and!.
  - apply (lives_part _ _ 0); [done|simpl; set_solver|done].
  - apply (lives_part _ _ 1); [done|simpl; set_solver|done].
  - exact N0.
  - apply (needed_call shared_cfg [0] 0 1); [done| |done]. exists 0. split; [done|simpl; set_solver].
  - intros s (r&n&H).
    pose proof (eq_trans (eq_sym (H (n + n0) ltac:(lia))) (HE (n + n0) ltac:(lia))) as E. discriminate E.
  - exact (ex_intro _ s0 (ex_intro _ n0 HE)).
Qed.

Print Assumptions C73_build_succeeds.
Print Assumptions C73_application.
Print Assumptions C73_process_contents.
Print Assumptions C73_process_configuration.
Print Assumptions C73_one_instance.
Print Assumptions C73_arguments.
Print Assumptions C73_remote_calls.
Print Assumptions C73_sharing_refuted.
