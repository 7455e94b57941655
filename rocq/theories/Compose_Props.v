(** * Properties of the docker-compose deployment (C42) *)
From Verif Require Import Ports_Model Ports_Spec Env_Model Compose_Model Compose_Spec Compose_Proof.
Open Scope list_scope.

(** C42. After any sequence of declarations that succeeded, whenever processing succeeds, for any
    two iteration orders: there is one port per bind config such that
    - the compose file has exactly one service per declared instance, under its clean name;
    - the instance of a bind exposes its port, maps it to the variable named after the bind, and
      is told to bind it through the environment unless it was pre-assigned, in which case that is
      its port; two binds of an instance have different ports;
    - a dial of an address bound in the deployment gets host name and port of an instance binding
      it; any other dial is passed through and must be set;
    - config arguments without a value are passed through;
    - nothing else is exposed or set. *)
Theorem C42_dials_reach_servers :
  ∀ f h ops w o1 o2 m,
    do_ops dws0 ops = Some w → deployment_ok h w →
    range_order (w_args w) o1 → range_order (w_args w) o2 →
    finish f h w o1 o2 = DOk m →
    ∃ port : nat → N,
      (∀ c, is_Some (m !! c) ↔ ∃ j, is_Some (w_args w !! j) ∧ CleanName j = c) ∧
      ∀ j args, w_args w !! j = Some args →
      ∃ i0 i, w_insts w !! CleanName j = Some i0 ∧ m !! CleanName j = Some i ∧
        (∀ b, ABind b ∈ args →
           port b ∈ shown_expose i ∧
           shown_ports i !! must_be_set (b_key (deref h b)) = Some (port b) ∧
           (port_of h b ≠ 0%N → port b = port_of h b) ∧
           (port_of h b = 0%N → shown_env i !! EnvVar (b_key (deref h b)) = Some (host_port "0.0.0.0" (port b)))) ∧
        (∀ b b', ABind b ∈ args → ABind b' ∈ args → b ≠ b' → port b ≠ port b') ∧
        (∀ k a, ADial k a ∈ args →
           (∃ j' b, has_arg w j' (ABind b) ∧ b_addr (deref h b) = a ∧
                    shown_env i !! EnvVar k = Some (host_port (CleanName j') (port b))) ∨
           ((¬ ∃ j' b, has_arg w j' (ABind b) ∧ b_addr (deref h b) = a) ∧
            shown_env i !! EnvVar k = Some (must_be_set k))) ∧
        (∀ k opt, AConf k false opt ∈ args →
           shown_env i !! EnvVar k = Some (if opt then or_empty k else must_be_set k)) ∧
        (∀ p, p ∈ shown_expose i → ∃ b, ABind b ∈ args ∧ p = port b) ∧
        (∀ v, (∀ a n, a ∈ args → arg_name h a = Some n → EnvVar n ≠ v) → shown_env i !! v = i_config i0 !! v).
Proof.
  intros f h ops w o1 o2 m Hops Hok Ho1 Ho2 Hf. apply (finish_correct f h w o1 o2 m); try done.
  eapply do_ops_ok; [exact dws0_ok|done].
Qed.
Print Assumptions C42_dials_reach_servers.

(** If no address is bound twice, neither the outcome nor the file depends on map iteration order. *)
Theorem C42_order_independent :
  ∀ f h ops w o1 o2 o1' o2' m,
    do_ops dws0 ops = Some w → deployment_ok h w → addresses_unique h w →
    range_order (w_args w) o1 → range_order (w_args w) o2 →
    range_order (w_args w) o1' → range_order (w_args w) o2' →
    finish f h w o1 o2 = DOk m → finish f h w o1' o2' = DOk m.
Proof.
  intros f h ops w o1 o2 o1' o2' m Hops. intros. eapply (finish_order_independent f h w o1 o2); try done.
  eapply do_ops_ok; [exact dws0_ok|done].
Qed.
Print Assumptions C42_order_independent.

(** Processing fails only because some instance has an argument that is not a config node, or two
    pre-assigned binds on one port; and in these cases it never succeeds. *)
Theorem C42_errors :
  ∀ f h w o1 o2,
    deployment_ok h w → range_order (w_args w) o1 →
    (finish f h w o1 o2 = DErr → ∃ j, unusable h w j) ∧
    ((∃ j, unusable h w j) → ∀ m, finish f h w o1 o2 ≠ DOk m).
Proof. exact finish_errors. Qed.
Print Assumptions C42_errors.

(** It terminates if every instance has room for its ports. *)
Theorem C42_terminates :
  ∀ h w o1 o2 f,
    deployment_ok h w → range_order (w_args w) o1 →
    (∀ j args b, w_args w !! j = Some args → ABind b ∈ args → port_of h b = 0%N →
       (start_port h b + N.of_nat (length (binds_of args)) ≤ 65536)%N) →
    (∀ j args, w_args w !! j = Some args → length (binds_of args) ≤ f) →
    finish f h w o1 o2 ≠ DHang.
Proof. exact finish_terminates. Qed.
Print Assumptions C42_terminates.

(** Different instances never share a host name: a second declaration under the same clean name is
    an error. *)
Theorem C42_hostnames_distinct :
  ∀ ops w, do_ops dws0 ops = Some w →
    (∀ j j', is_Some (w_args w !! j) → is_Some (w_args w !! j') → CleanName j = CleanName j' → j = j') ∧
    (∀ j n im d args, is_Some (w_args w !! j) → CleanName n = CleanName j →
       do_op w (DPrebuilt n im args) = None ∧ do_op w (DLocal n d args) = None).
Proof.
  intros ops w Hops. pose proof (do_ops_ok _ _ _ dws0_ok Hops) as (D1&D2&D3). split; [exact D3|].
  intros j n im d args Hj Hc. destruct (D1 _ Hj) as (i&Hi&_). cbn. unfold declare. by rewrite Hc, Hi.
Qed.
Print Assumptions C42_hostnames_distinct.

(** A deployment of two services and a database with a fixed port; the client also dials an
    address that is not part of the deployment. *)
Definition ex_heap : heap :=
  <[0 := Bind "user.grpc.bind_addr" "user.grpc.addr" "" 0 0]>
  (<[1 := Bind "db.bind_addr" "db.addr" "" 27017 0]>
  (<[2 := Bind "user.http.bind_addr" "user.http.addr" "" 0 2000]> ∅)).
Definition ex_ops : list dop :=
  [DLocal "user.ctr" "user_img" [ABind 0; ABind 2; ADial "db.dial_addr" "db.addr"; AConf "timeout" false true];
   DPrebuilt "db.ctr" "mongo" [ABind 1]; DSetEnv "db.ctr" "root" "x";
   DLocal "client.ctr" "client_img" [ADial "user.grpc.dial_addr" "user.grpc.addr"; ADial "zipkin.dial_addr" "zipkin.addr"]]%string.
Definition ex_w : dws := default dws0 (do_ops dws0 ex_ops).
Definition ex_order : list string := ["client.ctr"; "db.ctr"; "user.ctr"]%string.

Lemma ex_ops_ok : do_ops dws0 ex_ops = Some ex_w.
Proof. reflexivity. Qed.
Lemma ex_args j args :
  w_args ex_w !! j = Some args →
  (j = "user.ctr"%string ∧ args = [ABind 0; ABind 2; ADial "db.dial_addr" "db.addr"; AConf "timeout" false true]%string) ∨
  (j = "db.ctr"%string ∧ args = [ABind 1]) ∨
  (j = "client.ctr"%string ∧ args = [ADial "user.grpc.dial_addr" "user.grpc.addr"; ADial "zipkin.dial_addr" "zipkin.addr"]%string).
Proof.
  replace (w_args ex_w) with
    (<["client.ctr" := [ADial "user.grpc.dial_addr" "user.grpc.addr"; ADial "zipkin.dial_addr" "zipkin.addr"]]>
    (<["db.ctr" := [ABind 1]]>
    (<["user.ctr" := [ABind 0; ABind 2; ADial "db.dial_addr" "db.addr"; AConf "timeout" false true]]> (∅ : gmap string (list carg)))))%string by reflexivity.
  intros [[<- <-]|[_ [[<- <-]|[_ [[<- <-]|[_ E]]%lookup_insert_Some]]%lookup_insert_Some]]%lookup_insert_Some; auto.
  by rewrite lookup_empty in E.
Qed.
Lemma ex_ok : deployment_ok ex_heap ex_w.
Proof.
  split_and!.
  - intros j b (args&Ha&Hb). destruct (ex_args _ _ Ha) as [[-> ->]|[[-> ->]|[-> ->]]];
      repeat (apply elem_of_cons in Hb as [E|Hb]; [simplify_eq; vm_compute; by eexists|]); by apply elem_of_nil in Hb.
  - intros j j' b (args&Ha&Hb) (args'&Ha'&Hb').
    destruct (ex_args _ _ Ha) as [[-> ->]|[[-> ->]|[-> ->]]], (ex_args _ _ Ha') as [[-> ->]|[[-> ->]|[-> ->]]]; try done;
      repeat (apply elem_of_cons in Hb as [E|Hb];
        [simplify_eq; repeat (apply elem_of_cons in Hb' as [E|Hb']; [by simplify_eq|]); by apply elem_of_nil in Hb'|]);
      by apply elem_of_nil in Hb.
  - intros j a a' n n' (args&Ha&Hb) (args'&Ha'&Hb') Hn Hn' Hv. assert (args' = args) as -> by congruence.
    destruct (ex_args _ _ Ha) as [[-> ->]|[[-> ->]|[-> ->]]];
      repeat (apply elem_of_cons in Hb as [->|Hb];
        [repeat (apply elem_of_cons in Hb' as [->|Hb'];
           [first [reflexivity | cbn in Hn, Hn'; simplify_eq; vm_compute in Hv; done]|]); by apply elem_of_nil in Hb'|]);
      by apply elem_of_nil in Hb.
Qed.
Lemma ex_range : range_order (w_args ex_w) ex_order ∧ range_order (w_args ex_w) (reverse ex_order).
Proof.
  assert (range_order (w_args ex_w) ex_order) as [H1 H2].
  { split; [apply (bool_decide_unpack _); vm_compute; exact I|].
    intros n. split.
    - intros Hn. repeat (apply elem_of_cons in Hn as [->|Hn]; [vm_compute; by eexists|]). by apply elem_of_nil in Hn.
    - intros [args Ha]. unfold ex_order. destruct (ex_args _ _ Ha) as [[-> ->]|[[-> ->]|[-> ->]]]; set_solver. }
  split; [by split|]. split; [by rewrite reverse_Permutation|]. intros n. rewrite elem_of_reverse. apply H2.
Qed.
Example C42_nonvacuous :
  do_ops dws0 ex_ops = Some ex_w ∧ deployment_ok ex_heap ex_w ∧ addresses_unique ex_heap ex_w ∧
  range_order (w_args ex_w) ex_order ∧ range_order (w_args ex_w) (reverse ex_order) ∧
  ∃ m, finish 10 ex_heap ex_w ex_order (reverse ex_order) = DOk m ∧
    (shown_env <$> m !! "user_ctr") ≫= (.!! "DB_DIAL_ADDR") = Some "db_ctr:27017" ∧
    (shown_env <$> m !! "user_ctr") ≫= (.!! "USER_GRPC_BIND_ADDR") = Some "0.0.0.0:2000" ∧
    (shown_env <$> m !! "user_ctr") ≫= (.!! "USER_HTTP_BIND_ADDR") = Some "0.0.0.0:2001" ∧
    (shown_env <$> m !! "user_ctr") ≫= (.!! "TIMEOUT") = Some "${TIMEOUT:-}" ∧
    (shown_env <$> m !! "client_ctr") ≫= (.!! "USER_GRPC_DIAL_ADDR") = Some "user_ctr:2000" ∧
    (shown_env <$> m !! "client_ctr") ≫= (.!! "ZIPKIN_DIAL_ADDR") =
      Some "${ZIPKIN_DIAL_ADDR?zipkin.dial_addr must be set by the calling environment}" ∧
    (shown_env <$> m !! "db_ctr") ≫= (.!! "ROOT") = Some "x".
Proof.
  split_and!; [exact ex_ops_ok|exact ex_ok| |apply ex_range|apply ex_range|].
  - intros j j' b b' (args&Ha&Hb) (args'&Ha'&Hb') Hab.
    destruct (ex_args _ _ Ha) as [[-> ->]|[[-> ->]|[-> ->]]], (ex_args _ _ Ha') as [[-> ->]|[[-> ->]|[-> ->]]];
      repeat (apply elem_of_cons in Hb as [E|Hb];
        [simplify_eq; repeat (apply elem_of_cons in Hb' as [E|Hb']; [simplify_eq; first [reflexivity | vm_compute in Hab; done]|]); by apply elem_of_nil in Hb'|]);
      by apply elem_of_nil in Hb.
  - eexists. split; [reflexivity|]. vm_compute. done.
Qed.
Example C42_nonvacuous_error :
  unusable (<[2 := Bind "x" "x" "" 27017 0]> ex_heap) (Dws {["a"%string := [ABind 1; ABind 2]]} ∅) "a" ∧
  finish 10 (<[2 := Bind "x" "x" "" 27017 0]> ex_heap) (Dws {["a"%string := [ABind 1; ABind 2]]} ∅) ["a"%string] [] = DErr.
Proof.
  split; [|reflexivity]. right. exists [ABind 1; ABind 2]. split; [done|].
  apply (bool_decide_unpack _). vm_compute. exact I.
Qed.

(** Finding: if two instances bind one address, which of them a client dials depends on Go's map
    iteration order, i.e. it changes from one run of the compiler to the next. *)
Theorem C42_order_independent_for_shared_address_refuted :
  ∃ f h ops w o1 o1' m m',
    do_ops dws0 ops = Some w ∧
    range_order (w_args w) o1 ∧ range_order (w_args w) o1' ∧
    finish f h w o1 o1 = DOk m ∧ finish f h w o1' o1 = DOk m' ∧
    (shown_env <$> m !! "c"%string) ≫= (.!! "D"%string) = Some "a:2000"%string ∧
    (shown_env <$> m' !! "c"%string) ≫= (.!! "D"%string) = Some "b:2000"%string.
Proof.
  set (ops := [DPrebuilt "a" "x" [ABind 0]; DPrebuilt "b" "x" [ABind 1]; DPrebuilt "c" "x" [ADial "d" "addr"]]%string).
  exists 10, (<[0 := Bind "k0" "addr" "" 0 0]> {[1 := Bind "k1" "addr" "" 0 0]})%string, ops, (default dws0 (do_ops dws0 ops)),
    ["c"; "b"; "a"]%string, ["a"; "b"; "c"]%string.
  assert (Hr : ∀ n, is_Some (w_args (default dws0 (do_ops dws0 ops)) !! n) ↔ n = "a"%string ∨ n = "b"%string ∨ n = "c"%string).
  { intros n. change (w_args (default dws0 (do_ops dws0 ops))) with
     (<["c" := [ADial "d" "addr"]]> (<["b" := [ABind 1]]> (<["a" := [ABind 0]]> (∅ : gmap string (list carg)))))%string.
    rewrite !lookup_insert_is_Some', lookup_empty. split; [intros [<-|[<-|[<-|[]]]]; auto; done|].
    intros [->|[->| ->]]; auto. }
  eexists _, _. split_and!; [reflexivity| | |reflexivity|reflexivity|reflexivity|reflexivity].
  - split; [apply (bool_decide_unpack _); vm_compute; exact I|]. intros n. rewrite Hr. set_solver.
  - split; [apply (bool_decide_unpack _); vm_compute; exact I|]. intros n. rewrite Hr. set_solver.
Qed.
Print Assumptions C42_order_independent_for_shared_address_refuted.

(** Finding: without the requirement that variables differ, a dial can overwrite the port a server
    is told to bind, and clients then dial a port nobody listens on. *)
Theorem C42_colliding_names_refuted :
  ∃ f h ops w o m,
    do_ops dws0 ops = Some w ∧ range_order (w_args w) o ∧ finish f h w o o = DOk m ∧
    has_arg w "a" (ABind 0) ∧ port_of h 0 = 0%N ∧
    (shown_env <$> m !! "a"%string) ≫= (.!! EnvVar (b_key (deref h 0))) = Some "b:2000"%string.
Proof.
  set (ops := [DPrebuilt "a" "x" [ABind 0; ADial "k_0" "q"]; DPrebuilt "b" "x" [ABind 1]]%string).
  exists 10, (<[0 := Bind "k.0" "addr" "" 0 3000]> {[1 := Bind "k1" "q" "" 0 0]})%string, ops, (default dws0 (do_ops dws0 ops)),
    ["b"; "a"]%string.
  eexists. split_and!; [reflexivity| |reflexivity| |reflexivity|reflexivity].
  - split; [apply (bool_decide_unpack _); vm_compute; exact I|]. intros n.
    change (w_args (default dws0 (do_ops dws0 ops))) with
     (<["b" := [ABind 1]]> (<["a" := [ABind 0; ADial "k_0" "q"]]> (∅ : gmap string (list carg))))%string.
    rewrite !lookup_insert_is_Some', lookup_empty. split; [set_solver|].
    intros [<-|[<-|[? [=]]]]; set_solver.
  - eexists. split; [reflexivity|]. left.
Qed.
Print Assumptions C42_colliding_names_refuted.
