(** * C57, C58: the outcome of a remote call *)
From Verif Require Import RpcCall_Proof Rpc_Props.
From Coq Require Import ZifyBool ZifyNat ZifyN Lia.
Set Default Proof Using "Type".

Section props.
  Context (cd : code) (round32 : N → N) (utf8 : string → bool) (svc : list run → run → reply) (crash badmsg : string) (status : string → string).
  Context (enc : ty → gval → option string) (dec : ty → string → option gval) (jsonerr : string).
  #[local] Notation grpc := (grpc_call cd round32 utf8 svc crash badmsg status).
  #[local] Notation thrift := (thrift_call cd round32 utf8 svc crash badmsg status).
  #[local] Notation http := (http_call svc enc dec jsonerr).

  (** ** C57: a remote call is like a local one *)

  (** gRPC, on a working network and before the deadline: the service runs once, on the arguments of the caller
      (nil and empty slices not told apart); the caller gets its results, or its error. *)
  Theorem C57_grpc_like_local timeout now k ats rts dl hist vs :
    go_code cd → sendable Grpc cd ats → sendable Grpc cd rts → values Grpc round32 utf8 cd vs ats →
    ∃ us d, Forall2 alike vs us ∧
      let r := Run (Some <$> us) (Some d) in
      (∀ e, svc hist r = Fails e → grpc timeout now (Net NoFault k None) ats rts dl hist vs = (Error (status e), [r])) ∧
      (∀ rets, svc hist r = Returns rets → values Grpc round32 utf8 cd rets rts →
         ∃ ws, grpc timeout now (Net NoFault k None) ats rts dl hist vs = (Success (Some <$> ws), [r]) ∧ Forall2 alike rets ws).
  Proof.
    intros Hgo Ha Hr Hv. destruct (sendable_arrive _ _ _ _ _ _ Hgo Ha Hv) as (us & E & Hal).
    exists us, (match dl with Some d => d `min` (now + timeout) | None => now + timeout end). split; [done|].
    unfold grpc_call, stub_call. rewrite E. simpl. split.
    - intros e Hs. by rewrite Hs.
    - intros rets Hs Hrv. destruct (sendable_arrive _ _ _ _ _ _ Hgo Hr Hrv) as (ws & Ew & Halw). exists ws. split; [|done].
      by rewrite Hs, Ew.
  Qed.

  (** Thrift: the same, but the error of the service is replaced by another. *)
  Theorem C57_thrift_like_local k ats rts dl hist vs :
    go_code cd → sendable Thrift cd ats → sendable Thrift cd rts → values Thrift round32 utf8 cd vs ats →
    ∃ us, Forall2 alike vs us ∧
      let r := Run (Some <$> us) None in
      (∀ e, svc hist r = Fails e → thrift (Net NoFault k None) ats rts dl hist vs = (Error "Response object is nil", [r])) ∧
      (∀ rets, svc hist r = Returns rets → values Thrift round32 utf8 cd rets rts →
         ∃ ws, thrift (Net NoFault k None) ats rts dl hist vs = (Success (Some <$> ws), [r]) ∧ Forall2 alike rets ws).
  Proof.
    intros Hgo Ha Hr Hv. destruct (sendable_arrive _ _ _ _ _ _ Hgo Ha Hv) as (us & E & Hal).
    exists us. split; [done|]. unfold thrift_call, stub_call. rewrite E. simpl. split.
    - intros e Hs. by rewrite Hs.
    - intros rets Hs Hrv. destruct (sendable_arrive _ _ _ _ _ _ Hgo Hr Hrv) as (ws & Ew & Halw). exists ws. split; [|done].
      by rewrite Hs, Ew.
  Qed.

  (** HTTP: the service runs on exactly the arguments, if JSON encodes and decodes them; its error is replaced
      by the status. *)
  Theorem C57_http_like_local ctx params rts dl hist vs :
    NoDup params.*1 → Forall2 (http_ok enc dec) vs params.*2 →
    let r := Run (Some <$> vs) None in
    (∀ e, svc hist r = Fails e → http (Net NoFault 0 ctx) params rts dl hist vs = (Error "StatusCode was 500", [r])) ∧
    (∀ rets, svc hist r = Returns rets → Forall2 (json_ok enc dec) rets rts →
       http (Net NoFault 0 ctx) params rts dl hist vs = (Success (Some <$> rets), [r])).
  Proof.
    intros Hnd HF r. destruct (query_ok _ _ _ _ HF) as (q & Hq & _). unfold http_call. rewrite Hq.
    rewrite (http_args_arrive _ _ _ _ _ Hnd HF Hq). simpl. rewrite app_nil_r. unfold http_serve. split.
    - intros e Hs. fold r. by rewrite Hs.
    - intros rets Hs HFr. fold r. rewrite Hs. cbn [fst snd]. by rewrite (http_rets_arrive enc dec jsonerr rts rets HFr).
  Qed.

  (** ** C58: what the caller is told is what happened, whatever the network does *)

  (** Success: the service ran, returned, and these are its results as they arrive. *)
  Theorem C58_success_means_done_grpc timeout now n ats rts dl hist vs ws rs :
    grpc timeout now n ats rts dl hist vs = (Success ws, rs) →
    ∃ us d rets, rs = [Run us (Some d)] ∧ transmit Grpc cd round32 utf8 ats vs = Delivered us ∧
      svc hist (Run us (Some d)) = Returns rets ∧ transmit Grpc cd round32 utf8 rts rets = Delivered ws.
  Proof.
    unfold grpc_call, stub_call, serve. destruct (transmit Grpc cd round32 utf8 ats vs) as [us| | | |]; try (by destruct (net_fault n), (net_ctx n)).
    destruct (net_fault n); simpl; try done.
    match goal with |- context [svc hist ?r] => destruct (svc hist r) as [rets|e] eqn:Es end; [|done].
    destruct (transmit Grpc cd round32 utf8 rts rets) as [ws'| | | |] eqn:Er; try done; destruct (net_ctx n); try done.
    intros [= -> <-]. eexists us, _, rets. done.
  Qed.
  Theorem C58_success_means_done_thrift n ats rts dl hist vs ws rs :
    thrift n ats rts dl hist vs = (Success ws, rs) →
    ∃ us rets, rs = [Run us None] ∧ transmit Thrift cd round32 utf8 ats vs = Delivered us ∧
      svc hist (Run us None) = Returns rets ∧ transmit Thrift cd round32 utf8 rts rets = Delivered ws.
  Proof.
    unfold thrift_call, stub_call, serve. destruct (transmit Thrift cd round32 utf8 ats vs) as [us| | | |]; try (by destruct (net_fault n), (net_ctx n)).
    destruct (net_fault n); simpl; try by destruct (net_ctx n).
    destruct (svc hist _) as [rets|e] eqn:Es; [|by destruct (net_ctx n)].
    destruct (transmit Thrift cd round32 utf8 rts rets) as [ws'| | | |] eqn:Er; try by destruct (net_ctx n).
    intros [= -> <-]. eexists us, rets. done.
  Qed.
  Theorem C58_success_means_done_http n params rts dl hist vs ws rs :
    NoDup params.*1 → Forall2 (http_ok enc dec) vs params.*2 →
    http n params rts dl hist vs = (Success ws, rs) →
    ∃ before rets, rs = before ++ [Run (Some <$> vs) None] ∧ Forall (λ r, r = Run (Some <$> vs) None) before ∧
      svc (hist ++ before) (Run (Some <$> vs) None) = Returns rets ∧ (Forall2 (json_ok enc dec) rets rts → ws = Some <$> rets).
  Proof.
    intros Hnd HF. destruct (query_ok _ _ _ _ HF) as (q & Hq & _). unfold http_call. rewrite Hq.
    rewrite (http_args_arrive _ _ _ _ _ Hnd HF Hq). unfold http_serve.
    assert (∀ f, (let '(st, body, r) := (match svc (hist ++ resend svc enc (net_resends n) rts hist (Some <$> vs)) (Run (Some <$> vs) None) with
         | Returns rets => (200%N, mapM (λ tv : ty * gval, enc tv.1 tv.2) (zip rts rets)) | Fails _ => (500%N, None) end, Run (Some <$> vs) None) in
       (match f with ResponseLost e => Error e | _ => http_result dec jsonerr rts st body end, resend svc enc (net_resends n) rts hist (Some <$> vs) ++ [r])) = (Success ws, rs) →
       ∃ before rets, rs = before ++ [Run (Some <$> vs) None] ∧ Forall (λ r, r = Run (Some <$> vs) None) before ∧
      svc (hist ++ before) (Run (Some <$> vs) None) = Returns rets ∧ (Forall2 (json_ok enc dec) rets rts → ws = Some <$> rets)) as H.
    { intros f. exists (resend svc enc (net_resends n) rts hist (Some <$> vs)).
      destruct (svc _ _) as [rets|e] eqn:Es; [|by destruct f]. exists rets.
      assert (http_result dec jsonerr rts 200 (mapM (λ tv : ty * gval, enc tv.1 tv.2) (zip rts rets)) = Success ws ∧
        rs = resend svc enc (net_resends n) rts hist (Some <$> vs) ++ [Run (Some <$> vs) None]) as [E ->] by (destruct f; by simplify_eq).
      split_and!; [done|apply resend_runs|done|]. intros HFr. rewrite (http_rets_arrive _ _ _ _ _ HFr) in E. congruence. }
    destruct (net_fault n) eqn:Ef; [apply (H NoFault)|done|apply (H (ResponseLost e))].
  Qed.

  (** A service that fails is never reported as a success. *)
  Theorem C58_failure_is_reported timeout now n ats rts params dl hist vs :
    (∀ h r, ∃ e, svc h r = Fails e) →
    (∀ ws rs, grpc timeout now n ats rts dl hist vs ≠ (Success ws, rs)) ∧
    (∀ ws rs, thrift n ats rts dl hist vs ≠ (Success ws, rs)) ∧
    (∀ ws rs, http n params rts dl hist vs ≠ (Success ws, rs)).
  Proof.
    intros Hf. split_and!; intros ws rs H.
    - apply C58_success_means_done_grpc in H as (us & d & rets & _ & _ & H & _). destruct (Hf hist (Run us (Some d))). congruence.
    - apply C58_success_means_done_thrift in H as (us & rets & _ & _ & H & _). destruct (Hf hist (Run us None)). congruence.
    - unfold http_call, http_serve in H. destruct (http_query enc params vs); [|done].
      destruct (net_fault n); [| done |]; (destruct (http_params dec params l) as [us|]; [|done]);
        [destruct (Hf (hist ++ resend svc enc (net_resends n) rts hist us) (Run us None)) as [e' E]|
         destruct (Hf (hist ++ resend svc enc (net_resends n) rts hist us) (Run us None)) as [e' E]]; rewrite E in H; done.
  Qed.

  (** gRPC and Thrift run the service at most once.  HTTP may run it again; every run has the same arguments. *)
  Theorem C58_at_most_once timeout now n ats rts dl hist vs :
    length (grpc timeout now n ats rts dl hist vs).2 ≤ 1 ∧ length (thrift n ats rts dl hist vs).2 ≤ 1.
  Proof.
    clear enc dec jsonerr. split.
    - unfold grpc_call, stub_call, serve. destruct (transmit _ _ _ _ _ _); simpl; try lia; destruct (net_fault n); simpl; lia.
    - unfold thrift_call, stub_call, serve. destruct (transmit _ _ _ _ _ _); simpl; try lia; destruct (net_fault n); simpl; lia.
  Qed.
  Theorem C58_http_runs_again k ctx params rts dl hist vs :
    NoDup params.*1 → Forall2 (http_ok enc dec) vs params.*2 →
    (http (Net NoFault k ctx) params rts dl hist vs).2 = replicate (S k) (Run (Some <$> vs) None).
  Proof.
    intros Hnd HF. destruct (query_ok _ _ _ _ HF) as (q & Hq & _). unfold http_call. rewrite Hq.
    rewrite (http_args_arrive _ _ _ _ _ Hnd HF Hq). rewrite replicate_S_end. cbn [net_fault net_resends]. unfold http_serve. cbn [fst snd].
    destruct (svc _ _); cbn [snd]; f_equal; symmetry; apply replicate_as_Forall; (split; [apply resend_length|]);
      (eapply Forall_impl; [apply resend_runs|by intros ? ->]).
  Qed.

  (** The deadline of the caller: the service gets it, or an earlier one, with gRPC; never with Thrift and HTTP. *)
  Theorem C58_deadline timeout now n ats rts params dl hist vs :
    (∀ r, r ∈ (grpc timeout now n ats rts dl hist vs).2 →
       ∃ d, run_deadline r = Some d ∧ d ≤ now + timeout ∧ (∀ d0, dl = Some d0 → d ≤ d0) ∧ (dl = None ∨ dl = Some d ∨ d = now + timeout)) ∧
    (∀ r, r ∈ (thrift n ats rts dl hist vs).2 → run_deadline r = None) ∧
    (∀ r, r ∈ (http n params rts dl hist vs).2 → run_deadline r = None).
  Proof.
    split_and!; intros r.
    - unfold grpc_call, stub_call, serve. set (d := match dl with Some d => d `min` (now + timeout) | None => now + timeout end).
      assert (d ≤ now + timeout ∧ (∀ d0, dl = Some d0 → d ≤ d0) ∧ (dl = None ∨ dl = Some d ∨ d = now + timeout)) as Hd.
      { unfold d. destruct dl as [d1|]; [|by split_and!; [lia| |left]]. split; [lia|]. split; [intros d0 [= ->]; lia|]. right.
        destruct (Nat.min_spec d1 (now + timeout)) as [[_ ->]|[_ ->]]; [by left|by right]. }
      destruct (transmit _ _ _ _ _ _) as [us| | | |]; [|by destruct (net_fault n); simpl; set_solver..].
      destruct (net_fault n); simpl; [|set_solver|]; intros ->%elem_of_list_singleton; exists d; done.
    - unfold thrift_call, stub_call, serve. destruct (transmit _ _ _ _ _ _) as [us| | | |]; [|by destruct (net_fault n); simpl; set_solver..].
      destruct (net_fault n); simpl; [|set_solver|]; intros ->%elem_of_list_singleton; done.
    - unfold http_call, http_serve. destruct (http_query enc params vs); [|simpl; set_solver].
      destruct (net_fault n); [|simpl; set_solver|]; (destruct (http_params dec params l) as [us|]; [|simpl; set_solver]); destruct (svc _ _); cbn [snd];
        rewrite elem_of_app, elem_of_list_singleton; intros [Hin| ->]; try done;
        pose proof (resend_runs svc enc (net_resends n) rts hist us) as HF; rewrite Forall_forall in HF; by rewrite (HF _ Hin).
  Qed.
End props.

(** gRPC hands the caller the service's error; Thrift and HTTP clients cannot tell two errors apart, whatever the network does. *)
Theorem C57_errors_indistinguishable cd round32 utf8 svc svc' crash badmsg status enc dec jsonerr n ats rts params dl hist vs :
  (∀ h r, ∃ e, svc h r = Fails e) → (∀ h r, ∃ e, svc' h r = Fails e) →
  thrift_call cd round32 utf8 svc crash badmsg status n ats rts dl hist vs = thrift_call cd round32 utf8 svc' crash badmsg status n ats rts dl hist vs ∧
  http_call svc enc dec jsonerr n params rts dl hist vs = http_call svc' enc dec jsonerr n params rts dl hist vs.
Proof.
  intros Hf Hf'. split.
  - unfold thrift_call, stub_call, serve. destruct (transmit _ _ _ _ _ _) as [us| | | |]; try done. destruct (net_fault n); try done. simpl.
    destruct (Hf hist (Run us None)) as [e ->], (Hf' hist (Run us None)) as [e' ->]. done.
  - unfold http_call. destruct (http_query enc params vs) as [q|]; [|done].
    assert (∀ us, resend svc enc (net_resends n) rts hist us = resend svc' enc (net_resends n) rts hist us) as Hr.
    { intros us. generalize hist. induction (net_resends n) as [|k IH]; intros h; [done|]. simpl. by rewrite IH. }
    assert (∀ h us, http_serve svc enc rts h us = http_serve svc' enc rts h us) as Hs.
    { intros h us. unfold http_serve. destruct (Hf h (Run us None)) as [e ->], (Hf' h (Run us None)) as [e' ->]. done. }
    destruct (net_fault n); try done; (destruct (http_params dec params q) as [us|]; [|done]); by rewrite Hr, Hs.
Qed.

(** Non-vacuity: an echo service, and one that fails, on Item of [shop]. *)
Definition echo : list run → run → reply := λ _ r, match run_args r with Some v :: _ => Returns [v] | _ => Fails "no item" end.
Example C57_nonvacuous :
  let t := [TUser ("shop", "Item")] in
  let v := an_item in
  let v' := VS [("Name", VB (VStr "bolt")); ("Qty", VB (VInt (-3))); ("Parts", VL (Some [VS [("Name", VB (VStr "thread")); ("Qty", VB (VInt 1)); ("Parts", VL (Some []))]]))] in
  grpc_call shop id (λ _, true) echo "crash" "bad" id 10 100 (Net NoFault 0 None) t t (Some 105) [] [v] = (Success [Some v'], [Run [Some v'] (Some 105)]) ∧
  grpc_call shop id (λ _, true) echo "crash" "bad" id 10 100 (Net (ResponseLost "reset") 0 None) t t None [] [v] = (Error "reset", [Run [Some v'] (Some 110)]) ∧
  grpc_call shop id (λ _, true) echo "crash" "bad" id 10 100 (Net NoFault 0 (Some "deadline exceeded")) t t None [] [v] = (Error "deadline exceeded", [Run [Some v'] (Some 110)]) ∧
  grpc_call shop id (λ _, true) echo "crash" "bad" id 10 100 (Net NoFault 0 None) [] t None [] [] = (Error "no item", [Run [] (Some 110)]) ∧
  thrift_call shop id (λ _, true) echo "crash" "bad" id (Net NoFault 0 None) t t (Some 105) [] [v] = (Success [Some v'], [Run [Some v'] None]) ∧
  thrift_call shop id (λ _, true) echo "crash" "bad" id (Net NoFault 0 None) [] t (Some 105) [] [] = (Error "Response object is nil", [Run [] None]) ∧
  let enc := λ t v, match v with VB (VInt z) => Some (pretty z) | _ => None end in
  let dec := λ (t : ty) s, if String.eqb s "7" then Some (VB (VInt 7)) else None in
  http_call echo enc dec "json" (Net NoFault 1 None) [("x", TBasic BInt); ("s", TBasic BString)] [TBasic BInt] (Some 105) [] [VB (VInt 7); VB (VStr "")]
    = (Success [Some (VB (VInt 7))], [Run [Some (VB (VInt 7)); Some (VB (VStr ""))] None; Run [Some (VB (VInt 7)); Some (VB (VStr ""))] None]) ∧
  http_call echo enc dec "json" (Net NoFault 0 None) [] [TBasic BInt] (Some 105) [] [] = (Error "StatusCode was 500", [Run [] None]).
Proof. cbv zeta. split_and!; vm_compute; reflexivity. Qed.
Example C57_sendable : sendable Grpc shop [TUser ("shop", "Item")] ∧ values Grpc id (λ _, true) shop [VS [("Name", VB (VStr "x")); ("Qty", VB (VInt 5)); ("Parts", VL None)]] [TUser ("shop", "Item")].
Proof.
  assert (∀ a t', uses shop a t' → a = TUser ("shop", "Item") ∨ a = TSlice (TUser ("shop", "Item")) ∨ a = TBasic BString ∨ a = TBasic BInt →
    t' = TUser ("shop", "Item") ∨ t' = TSlice (TUser ("shop", "Item")) ∨ t' = TBasic BString ∨ t' = TBasic BInt) as Hu.
  { induction 1 as [t|a b _ IH|k v b _ IH|k v b _ IH|a b _ IH|u ds n a b Hd Hin _ IH]; intros Ha; [done|naive_solver..|].
    apply IH. destruct Ha as [[= ->]|[|[|]]]; try done. vm_compute in Hd. simplify_eq. vm_compute in Hin.
    repeat (apply elem_of_cons in Hin as [[= -> ->]|Hin]; [naive_solver|]). set_solver. }
  split.
  - split_and!.
    + exists (λ _ _, true), 20. by vm_compute.
    + intros t t' ->%elem_of_list_singleton Hx. apply Hu in Hx; naive_solver.
    + intros t k v ->%elem_of_list_singleton Hx. apply Hu in Hx; naive_solver.
    + intros t u ds d ->%elem_of_list_singleton Hx Hd Hin. apply Hu in Hx; [|by left]. destruct Hx as [[= ->]|[|[|]]]; try done.
      vm_compute in Hd. simplify_eq. repeat (apply elem_of_cons in Hin as [->|Hin]; [by eexists|]). set_solver.
  - split; [|done]. constructor; [|constructor]. eapply ht_struct; [vm_compute; reflexivity|].
    constructor; [split; [done|by constructor]|]. constructor; [split; [done|constructor; unfold basic_value, signed; lia]|].
    constructor; [|constructor]. split; [done|]. apply ht_nil_slice.
Qed.

Print Assumptions C57_grpc_like_local.
Print Assumptions C57_thrift_like_local.
Print Assumptions C57_http_like_local.
Print Assumptions C57_errors_indistinguishable.
Print Assumptions C58_success_means_done_grpc.
Print Assumptions C58_success_means_done_thrift.
Print Assumptions C58_success_means_done_http.
Print Assumptions C58_failure_is_reported.
Print Assumptions C58_at_most_once.
Print Assumptions C58_http_runs_again.
Print Assumptions C58_deadline.
