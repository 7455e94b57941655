(** * Remote calls: proofs *)
From Verif Require Export RpcCall_Spec Rpc_Proof.
From Verif Require Import Rpc_Props.
From Coq Require Import ZifyBool ZifyNat ZifyN Lia.
Set Default Proof Using "Type".

Lemma sendable_arrive p cd round32 utf8 ts vs :
  go_code cd → sendable p cd ts → values p round32 utf8 cd vs ts →
  ∃ ws, transmit p cd round32 utf8 ts vs = Delivered (Some <$> ws) ∧ Forall2 alike vs ws.
Proof.
  intros Hgo ((names & fuel & Hg) & Hnp & Hnm & Hpl) [HF Hs]. destruct p.
  - eapply C55_grpc_values_arrive; try done. by apply Hs.
  - by eapply C55_thrift_values_arrive.
Qed.

Section http.
  Context (svc : list run → run → reply) (enc : ty → gval → option string) (dec : ty → string → option gval) (jsonerr : string).
  Lemma http_ok_inv v t : http_ok enc dec v t → ∃ s, http_encode enc t v = Some s ∧ http_decode dec t s = Some (Some v).
  Proof.
    assert (json_ok enc dec v t → ∃ s, enc t v = Some s ∧ (if String.eqb s "" then Some None else Some <$> dec t s) = Some (Some v)) as Hj.
    { intros (s & E & Hs & Hd). exists s. rewrite Hd. by destruct (String.eqb_spec s ""). }
    destruct t as [[]| | | | |]; try (by apply Hj). intros [s ->]. by exists s.
  Qed.
  Lemma query_ok params vs :
    Forall2 (http_ok enc dec) vs params.*2 →
    ∃ q, http_query enc params vs = Some q ∧ q.*1 = params.*1 ∧ Forall2 (λ (nt : string * ty) ve, http_decode dec nt.2 ve.2.2 = Some (Some ve.1)) params (zip vs q).
  Proof.
    revert vs. induction params as [|[n t] params IH]; intros vs HF; simpl in HF.
    - inversion HF; subst. exists []. split_and!; [done..|constructor].
    - apply Forall2_cons_inv_r in HF as (v & vs' & Hv & HF & ->). destruct (IH _ HF) as (q & Hq & Hn & HF').
      destruct (http_ok_inv _ _ Hv) as (s & Hs & Hd).
      exists ((n, s) :: q). unfold http_query in *. cbn [zip zip_with mapM]. change (zip_with pair params vs') with (zip params vs').
      cbn [fst snd] in *. rewrite Hs. simpl. rewrite Hq. split_and!; [done|exact (f_equal (cons n) Hn)|].
      constructor; [|exact HF']. done.
  Qed.
  Lemma params_ok params vs q :
    NoDup params.*1 → q.*1 = params.*1 →
    Forall2 (λ (nt : string * ty) ve, http_decode dec nt.2 ve.2.2 = Some (Some ve.1)) params (zip vs q) →
    length vs = length params → http_params dec params q = Some (Some <$> vs).
  Proof.
    clear enc svc. intros Hnd Hn HF Hlen. apply mapM_Some.
    assert (length q = length params) as Hlq by (by rewrite <-(fmap_length fst q), Hn, fmap_length).
    apply Forall2_fmap_r. apply Forall2_same_length_lookup. split; [done|].
    intros i [n t] v Hi Hv. destruct (lookup_lt_is_Some_2 q i) as [[n' s] Hq]; [apply lookup_lt_Some in Hi; lia|].
    assert (n' = n) as ->.
    { assert (q.*1 !! i = Some n') as H1 by (by rewrite list_lookup_fmap, Hq). assert (params.*1 !! i = Some n) as H2 by (by rewrite list_lookup_fmap, Hi). congruence. }
    assert (zip vs q !! i = Some (v, (n, s))) as Hz by (apply lookup_zip_with_Some; eauto).
    pose proof (Forall2_lookup_lr _ _ _ _ _ _ HF Hi Hz) as H. simpl in H.
    assert (lookup_field n q = Some s) as El.
    { apply lookup_field_Some; [by rewrite Hn|]. by eapply elem_of_list_lookup_2. }
    cbn [fst snd]. by rewrite El.
  Qed.
  Lemma http_args_arrive params vs q :
    NoDup params.*1 → Forall2 (http_ok enc dec) vs params.*2 → http_query enc params vs = Some q → http_params dec params q = Some (Some <$> vs).
  Proof.
    intros Hnd HF Hq. destruct (query_ok _ _ HF) as (q' & Hq' & Hn & HF'). assert (q' = q) as -> by congruence.
    eapply params_ok; [done..|]. by rewrite (Forall2_length _ _ _ HF), fmap_length.
  Qed.
  Lemma http_rets_arrive rts rets :
    Forall2 (json_ok enc dec) rets rts →
    http_result dec jsonerr rts 200 (mapM (λ tv : ty * gval, enc tv.1 tv.2) (zip rts rets)) = Success (Some <$> rets).
  Proof.
    intros HF. unfold http_result. simpl.
    assert (∃ ss, mapM (λ tv : ty * gval, enc tv.1 tv.2) (zip rts rets) = Some ss ∧ mapM (λ ts : ty * string, dec ts.1 ts.2) (zip rts ss) = Some rets) as (ss & -> & ->); [|done].
    induction HF as [|v t vs ts (s & E1 & _ & E2) HF (ss & IH1 & IH2)]; [by exists []|].
    exists (s :: ss). cbn [zip zip_with mapM fst snd]. change (zip_with pair ts vs) with (zip ts vs). change (zip_with pair ts ss) with (zip ts ss).
    rewrite E1. simpl. rewrite IH1. simpl. split; [done|]. rewrite E2. simpl. by rewrite IH2.
  Qed.
  Lemma resend_length k rts hist us : length (resend svc enc k rts hist us) = k.
  Proof. revert hist. induction k as [|k IH]; intros hist; [done|]. simpl. by rewrite IH. Qed.
  Lemma resend_runs k rts hist us : Forall (λ r, r = Run us None) (resend svc enc k rts hist us).
  Proof. revert hist. induction k as [|k IH]; intros hist; [constructor|]. simpl. by constructor. Qed.
End http.
