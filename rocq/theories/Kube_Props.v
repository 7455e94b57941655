(** * Properties of the Kubernetes deployment (C43) *)
From Verif Require Import Ports_Model Ports_Spec Env_Model Compose_Model Compose_Spec Kube_Model Kube_Spec Kube_Proof.
Open Scope list_scope.

(** C43.  Whenever generating an application succeeds there is one manifest per pod, and one port
    per bind config such that, in every pod,
    - binds have pairwise different ports; the container and the pod's service list the port of
      each bind; a pre-assigned bind keeps its port and any other is told its port;
    - a dial of an address bound in the pod sees localhost and a port bound there;
    - the config map holds, for every other dial, service name and port of a pod binding the
      address; the container sees it if it has at least one variable that is set directly;
    - a container without directly set variables sees no variables at all. *)
Theorem C43_every_variable_resolves :
  ∀ f h pods data outs,
    app_ok h pods → gen_app f h pods = DOk (data, outs) →
    length outs = length pods ∧
    ∃ port : nat → N,
    ∀ i p, pods !! i = Some p →
    ∃ m, outs !! i = Some (Podout (kube_name (p_name p)) m) ∧
      (∀ j j' b b', has_karg pods i j (ABind b) → has_karg pods i j' (ABind b') → b ≠ b' → port b ≠ port b') ∧
      ∀ j args, kw_args (p_ws p) !! j = Some args →
      ∃ i0 c, kw_insts (p_ws p) !! CleanName j = Some i0 ∧ m !! CleanName j = Some c ∧
        (∀ b, ABind b ∈ args →
           k_ports c !! b_addr (deref h b) = Some (port b) ∧ service_ports m (port b) ∧
           (port_of h b ≠ 0%N → port b = port_of h b) ∧
           (port_of h b = 0%N → effective data c (EnvVar (b_key (deref h b))) = Some (host_port "0.0.0.0" (port b)))) ∧
        (∀ k a, ADial k a ∈ args → bound_in h pods i a →
           ∃ j' b, has_karg pods i j' (ABind b) ∧ b_addr (deref h b) = a ∧
             effective data c (EnvVar k) = Some (host_port "localhost" (port b))) ∧
        (∀ k a, ADial k a ∈ args → ¬ bound_in h pods i a →
           ∃ i' p' j' b, pods !! i' = Some p' ∧ has_karg pods i' j' (ABind b) ∧ b_addr (deref h b) = a ∧
             data !! EnvVar k = Some (host_port (kube_name (p_name p')) (port b)) ∧
             (has_direct h pods i j i0 →
                effective data c (EnvVar k) = Some (host_port (kube_name (p_name p')) (port b)))) ∧
        (¬ has_direct h pods i j i0 → ∀ v, k_shown_env c v = None).
Proof. exact app_correct. Qed.
Print Assumptions C43_every_variable_resolves.

(** An argument that is not a config node, a config node without a value, and a dial of an address
    no pod binds are errors. *)
Theorem C43_unusable_arguments_are_errors :
  ∀ f h pods i j a,
    app_ok h pods → has_karg pods i j a →
    (a = ABad ∨ (∃ n opt, a = AConf n false opt) ∨ (∃ k x, a = ADial k x ∧ ∀ i', ¬ bound_in h pods i' x)) →
    ∀ out, gen_app f h pods ≠ DOk out.
Proof.
  intros f h pods i j a Hok Ha Hbad [data outs] Hg.
  destruct (app_usable f h pods data outs Hok Hg i j a Ha) as (U1&U2&U3).
  destruct Hbad as [?|[(n&opt&?)|(k&x&Hd&Hn)]]; [done|by eapply U2|].
  destruct (U3 k x Hd) as [i' Hi]. by apply (Hn i').
Qed.
Print Assumptions C43_unusable_arguments_are_errors.

(** A front end that dials a server in another pod, next to a pod with a server and its cache. *)
Definition ex_heap : heap :=
  <[0 := Bind "web.bind_addr" "web.addr" "" 0 80]>
  (<[1 := Bind "svc.bind_addr" "svc.addr" "" 0 0]>
  (<[2 := Bind "cache.bind_addr" "cache.addr" "" 6379 0]> ∅)).
Definition ex_ops1 : list kop :=
  [KDeclare "web.ctr" "web_img" [ABind 0; ADial "svc.dial_addr" "svc.addr"; AConf "mode" true false]; KSetEnv "web.ctr" "lang" "en"]%string.
Definition ex_ops2 : list kop :=
  [KDeclare "svc.ctr" "svc_img" [ABind 1; ADial "cache.dial_addr" "cache.addr"];
   KDeclare "cache.ctr" "redis" [ABind 2]]%string.
Definition ex_args1 : gmap string (list carg) :=
  {["web.ctr" := [ABind 0; ADial "svc.dial_addr" "svc.addr"; AConf "mode" true false]]}%string.
Definition ex_args2 : gmap string (list carg) :=
  (<["cache.ctr" := [ABind 2]]> {["svc.ctr" := [ABind 1; ADial "cache.dial_addr" "cache.addr"]]})%string.
Definition ex_pods : list pod :=
  [Pod "front_end" (default kws0 (do_kops kws0 ex_ops1)) ["web.ctr"] ["web.ctr"];
   Pod "back_end" (default kws0 (do_kops kws0 ex_ops2)) ["cache.ctr"; "svc.ctr"] ["svc.ctr"; "cache.ctr"]]%string.

Lemma ex_karg i j a :
  has_karg ex_pods i j a →
  (i = 0 ∧ j = "web.ctr"%string ∧ (a = ABind 0 ∨ a = ADial "svc.dial_addr" "svc.addr" ∨ a = AConf "mode" true false)) ∨
  (i = 1 ∧ j = "svc.ctr"%string ∧ (a = ABind 1 ∨ a = ADial "cache.dial_addr" "cache.addr")) ∨
  (i = 1 ∧ j = "cache.ctr"%string ∧ a = ABind 2).
Proof.
  intros (p&args&Hp&Hj&Ha).
  destruct i as [|[|i]]; cbn [lookup list_lookup ex_pods] in Hp; [injection Hp as <-..|done].
  - change (ex_args1 !! j = Some args) in Hj; unfold ex_args1 in Hj. apply lookup_singleton_Some in Hj as [<- <-].
    rewrite !elem_of_cons, elem_of_nil in Ha. naive_solver.
  - change (ex_args2 !! j = Some args) in Hj; unfold ex_args2 in Hj. apply lookup_insert_Some in Hj as [[<- <-]|[_ Hj]].
    + rewrite !elem_of_cons, elem_of_nil in Ha. naive_solver.
    + apply lookup_singleton_Some in Hj as [<- <-]. rewrite !elem_of_cons, elem_of_nil in Ha. naive_solver.
Qed.
Lemma ex_range (args : gmap string (list carg)) l :
  NoDup l → (list_to_set l : gset string) = dom args → range_order args l.
Proof.
  intros Hnd Hd. split; [done|]. intros n. rewrite <-elem_of_dom, <-Hd. by rewrite elem_of_list_to_set.
Qed.
Ltac ex_range_tac := apply ex_range; [apply (bool_decide_unpack _); vm_compute; exact I|
  apply (bool_decide_unpack _); vm_compute; exact I].
Ltac ex_cases H := apply ex_karg in H as [(->&->&[->|[->| ->]])|[(->&->&[->| ->])|(->&->&->)]].
Lemma ex_ok : app_ok ex_heap ex_pods.
Proof.
  split_and!.
  - intros [|[|i]] p Hp; cbn [lookup list_lookup ex_pods] in Hp; [injection Hp as <-..|done].
    + split_and!; [by exists ex_ops1|ex_range_tac|ex_range_tac].
    + split_and!; [by exists ex_ops2|ex_range_tac|ex_range_tac].
  - intros i j b H. apply ex_karg in H. destruct_or?; destruct_and?; destruct_or?; simplify_eq; vm_compute; by eexists.
  - intros i j i' j' b H H'. apply ex_karg in H, H'. destruct_or?; destruct_and?; destruct_or?; by simplify_eq.
  - intros i j a a' n n' H H' Hn Hn' Hv. apply ex_karg in H, H'.
    destruct_or?; destruct_and?; destruct_or?; simplify_eq; try done; cbn in Hn, Hn'; simplify_eq; by vm_compute in Hv.
  - intros i j b b' H H' Hv. apply ex_karg in H, H'. destruct_or?; destruct_and?; destruct_or?; by simplify_eq.
  - intros i j k a i' j' k' a' H H' Hv. apply ex_karg in H, H'.
    destruct_or?; destruct_and?; destruct_or?; simplify_eq; try done; by vm_compute in Hv.
Qed.
Example C43_nonvacuous :
  app_ok ex_heap ex_pods ∧
  ∃ data o1 o2, gen_app 10 ex_heap ex_pods = DOk (data, [o1; o2]) ∧
    po_pod o1 = "front-end"%string ∧
    (po_insts o1 !! "web_ctr"%string ≫= λ c, effective data c "SVC_DIAL_ADDR") = Some "back-end:2000"%string ∧
    (po_insts o1 !! "web_ctr"%string ≫= λ c, effective data c "WEB_BIND_ADDR") = Some "0.0.0.0:80"%string ∧
    (po_insts o2 !! "svc_ctr"%string ≫= λ c, effective data c "CACHE_DIAL_ADDR") = Some "localhost:6379"%string ∧
    (po_insts o2 !! "svc_ctr"%string ≫= λ c, effective data c "SVC_BIND_ADDR") = Some "0.0.0.0:2000"%string.
Proof.
  split; [exact ex_ok|]. eexists _, _, _. split; [reflexivity|]. vm_compute. done.
Qed.

(** Finding: a client-only container, whose dials all lead to other pods, is given no environment
    at all, although the config map holds the addresses it needs: the template nests the config-map
    variables inside the section for directly set ones. *)
Theorem C43_client_only_container_is_told_refuted :
  ∃ h pods data outs c,
    app_ok h pods ∧ gen_app 10 h pods = DOk (data, outs) ∧
    has_karg pods 0 "client" (ADial "svc.dial" "svc.addr") ∧
    data !! "SVC_DIAL"%string = Some "server:2000"%string ∧
    (λ o, po_insts o !! "client"%string) <$> outs !! 0 = Some (Some c) ∧
    "SVC_DIAL"%string ∈ k_cm c ∧
    ∀ v, k_shown_env c v = None.
Proof.
  set (ops1 := [KDeclare "client" "c" [ADial "svc.dial" "svc.addr"]]%string).
  set (ops2 := [KDeclare "svc" "s" [ABind 0]]%string).
  set (args1 := {["client" := [ADial "svc.dial" "svc.addr"]]}%string : gmap string (list carg)).
  set (args2 := {["svc" := [ABind 0]]}%string : gmap string (list carg)).
  set (pods := [Pod "client" (default kws0 (do_kops kws0 ops1)) ["client"] ["client"];
                Pod "server" (default kws0 (do_kops kws0 ops2)) ["svc"] ["svc"]]%string).
  assert (Hk : ∀ i j a, has_karg pods i j a →
    (i = 0 ∧ j = "client"%string ∧ a = ADial "svc.dial" "svc.addr") ∨ (i = 1 ∧ j = "svc"%string ∧ a = ABind 0)).
  { intros i j a (p&args&Hp&Hj&Ha).
    destruct i as [|[|i]]; cbn [lookup list_lookup pods] in Hp; [injection Hp as <-..|done].
    - change (args1 !! j = Some args) in Hj; unfold args1 in Hj. apply lookup_singleton_Some in Hj as [<- <-].
      rewrite elem_of_list_singleton in Ha. auto.
    - change (args2 !! j = Some args) in Hj; unfold args2 in Hj. apply lookup_singleton_Some in Hj as [<- <-].
      rewrite elem_of_list_singleton in Ha. auto. }
  exists {[0 := Bind "svc.bind" "svc.addr" "" 0 0]}%string, pods.
  eexists _, _, _. split; [|split; [reflexivity|]]; [|split; [|split; [reflexivity|split; [reflexivity|split; [apply (bool_decide_unpack _); vm_compute; exact I|]]]]].
  - split_and!.
    + intros [|[|i]] p Hp; cbn [lookup list_lookup pods] in Hp; [injection Hp as <-..|done].
      * split_and!; [by exists ops1|ex_range_tac|ex_range_tac].
      * split_and!; [by exists ops2|ex_range_tac|ex_range_tac].
    + intros i j b H. apply Hk in H. destruct_or?; destruct_and?; simplify_eq; vm_compute; by eexists.
    + intros i j i' j' b H H'. apply Hk in H, H'. destruct_or?; destruct_and?; by simplify_eq.
    + intros i j a a' n n' H H' Hn Hn' Hv. apply Hk in H, H'. destruct_or?; destruct_and?; by simplify_eq.
    + intros i j b b' H H' Hv. apply Hk in H, H'. destruct_or?; destruct_and?; by simplify_eq.
    + intros i j k a i' j' k' a' H H' Hv. apply Hk in H, H'. destruct_or?; destruct_and?; by simplify_eq.
  - exists (Pod "client" (default kws0 (do_kops kws0 ops1)) ["client"] ["client"])%string, [ADial "svc.dial" "svc.addr"]%string.
    split_and!; [done|reflexivity|left].
  - intros v. unfold k_shown_env. rewrite decide_True; [done|reflexivity].
Qed.
Print Assumptions C43_client_only_container_is_told_refuted.

(** Pod and service names contain no underscore (Kubernetes does not allow it) and are otherwise the names in the wiring. *)
Theorem C43_pod_names : ∀ s n,
  String.get n (kube_name s) = (fun c => if bool_decide (c = "_"%char) then "-"%char else c) <$> String.get n s ∧
  String.get n (kube_name s) ≠ Some "_"%char.
Proof.
  intros s n. assert (String.get n (kube_name s) = (fun c => if bool_decide (c = "_"%char) then "-"%char else c) <$> String.get n s) as H.
  { revert n. induction s as [|c s IH]; intros n; [done|]. destruct n as [|n]; [done|]. apply IH. }
  split; [done|]. rewrite H. destruct (String.get n s) as [c|]; [|done]. simpl. case_bool_decide; congruence.
Qed.
Print Assumptions C43_pod_names.
