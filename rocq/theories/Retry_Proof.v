From Coq Require Import ZifyBool ZifyNat ZifyN Lia.
From Verif Require Import Retry_Model Retry_Spec.
Ltac Zify.zify_post_hook ::= Z.div_mod_to_equations.

Section plain.
  Context {V E : Type} (out : nat → result V E).

  Lemma plain_loop_spec rem i cur :
    0 < rem →
    ∃ k, 1 ≤ k ≤ rem ∧
      plain_loop out rem i cur =
        ((λ j, ECall (Z.of_nat j + 1)) <$> seq i k, out (i + (k - 1))) ∧
      (∀ j, j < k - 1 → fails (out (i + j))) ∧
      (succeeds (out (i + (k - 1))) ∨ k = rem).
  Proof.
    revert i cur. induction rem as [|rem IH]; intros i cur Hrem; [lia|]. simpl.
    destruct (rerr (out i)) as [e|] eqn:He.
    - destruct (decide (rem = 0)) as [->|Hne].
      + exists 1. simpl. rewrite Nat.add_0_r. split_and!; [lia|lia|done|lia|by right].
      + destruct (IH (S i) (out i)) as (k&Hk&Heq&Hf&Hs); [lia|].
        exists (S k). rewrite Heq. simpl. rewrite Nat.sub_0_r.
        replace (S (i + (k - 1))) with (i + k) in * by lia.
        split_and!; [lia|lia|done| |].
        * intros [|j] Hj; [rewrite Nat.add_0_r; eexists; exact He|].
          replace (i + S j) with (S i + j) by lia. apply Hf. lia.
        * simpl in Hs. replace (S (i + (k - 1))) with (i + k) in Hs by lia.
          destruct Hs; [by left|right; lia].
    - exists 1. simpl. rewrite Nat.add_0_r. split_and!; [lia|lia|done|lia|by left].
  Qed.

  Lemma retry_plain_spec max zero :
    (0 < max)%Z →
    ∃ k, 1 ≤ k ∧ (Z.of_nat k ≤ max)%Z ∧
      retry_plain out max zero = (attempts k, out (k - 1)) ∧
      (∀ j, j < k - 1 → fails (out j)) ∧
      (succeeds (out (k - 1)) ∨ Z.of_nat k = max).
  Proof.
    intros H. destruct (plain_loop_spec (Z.to_nat max) 0 (Result zero None)) as (k&Hk&Heq&Hf&Hs);
      [lia|]. exists k. split_and!; [lia|lia|exact Heq|exact Hf|].
    destruct Hs; [by left|right; lia].
  Qed.

  Lemma retry_plain_nonpos max zero :
    (max ≤ 0)%Z → retry_plain out max zero = ([], Result zero None).
  Proof. intros H. unfold retry_plain. by replace (Z.to_nat max) with 0 by lia. Qed.

  Definition fixed_events (d : Z) (l : list nat) : list event :=
    flat_map (λ j, ECall (Z.of_nat j + 1) ::
                match rerr (out j) with None => [] | Some _ => [ESleep d] end) l.

  Lemma fixed_plain d rem i cur :
    ∃ k, fst (plain_loop out rem i cur) = (λ j, ECall (Z.of_nat j + 1)) <$> seq i k ∧
      fixed_loop out d rem i cur = (fixed_events d (seq i k), snd (plain_loop out rem i cur)).
  Proof.
    revert i cur. induction rem as [|rem IH]; intros i cur; simpl; [by exists 0|].
    destruct (rerr (out i)) as [e|] eqn:He.
    - destruct (IH (S i) (out i)) as (k&H1&H2). destruct (plain_loop out rem (S i) (out i)) eqn:Ep.
      simpl in *. exists (S k). rewrite H2. simpl. rewrite He. simpl. by rewrite H1.
    - exists 1. simpl. by rewrite He.
  Qed.

  Lemma seq_fmap_inj i k k' :
    (λ j, ECall (Z.of_nat j + 1)) <$> seq i k = (λ j, ECall (Z.of_nat j + 1)) <$> seq i k' → k = k'.
  Proof. intros H%(f_equal length). by rewrite !fmap_length, !seq_length in H. Qed.

  Lemma retry_fixed_spec max d zero :
    (0 < max)%Z →
    ∃ k, 1 ≤ k ∧ (Z.of_nat k ≤ max)%Z ∧
      retry_fixed out max d zero =
        (flat_map (λ j, ECall (Z.of_nat j + 1) ::
             match rerr (out j) with None => [] | Some _ => [ESleep d] end) (seq 0 k), out (k - 1)) ∧
      (∀ j, j < k - 1 → fails (out j)) ∧
      (succeeds (out (k - 1)) ∨ Z.of_nat k = max).
  Proof.
    intros H. destruct (retry_plain_spec max zero H) as (k&H1&H2&H3&H4&H5). exists k.
    split_and!; [done..| |done|done].
    destruct (fixed_plain d (Z.to_nat max) 0 (Result zero None)) as (k'&Hp&Hf).
    unfold retry_plain in H3. rewrite H3 in Hp, Hf. simpl in *.
    apply seq_fmap_inj in Hp as <-. exact Hf.
  Qed.
End plain.

Section backoff.
  Context {V E : Type} (out : nat → result V E) (jit : option (nat → Z → Z)).
  Context (cancelled : nat → bool) (cerr : E) (delay limit : Z).
  Notation nominal i := (delay * 2 ^ Z.of_nat i)%Z.

  Definition stop_ok (k : nat) (r : result V E) : Prop :=
    (r = out k ∧ (succeeds (out k) ∨ limit ≤ nominal k)%Z) ∨
    (cancelled k = true ∧ fails (out k) ∧ (nominal k < limit)%Z ∧
     r = Result (rval (out k)) (Some cerr)).

  Lemma jitter_wait i d :
    jitter_ok jit → (jit ≠ None → 2 ≤ d)%Z → (0 < d)%Z →
    ∃ w, (match jit with Some j => add_jitter (j i) d | None => Some d end) = Some w ∧ wait_ok jit d w.
  Proof.
    intros Hj Hd Hd0. unfold wait_ok. destruct jit as [j|]; [|by eexists].
    assert (2 ≤ d)%Z as Hd2 by by apply Hd. unfold add_jitter.
    rewrite Z.quot_div_nonneg by lia.
    destruct (Z.leb_spec (d / 2) 0) as [?|Hlt]; [lia|]. eexists. split; [done|].
    pose proof (Hj j eq_refl i (d / 2)%Z Hlt). lia.
  Qed.

  Lemma nominal_pos i : (0 < delay → 0 < nominal i)%Z.
  Proof. intros. apply Z.mul_pos_pos; [done|]. apply Z.pow_pos_nonneg; lia. Qed.
  Lemma nominal_ge i : (0 < delay → delay ≤ nominal i)%Z.
  Proof. intros. assert (0 < 2 ^ Z.of_nat i)%Z by (apply Z.pow_pos_nonneg; lia). nia. Qed.
  Lemma nominal_S i : (nominal (S i) = 2 * nominal i)%Z.
  Proof. rewrite Nat2Z.inj_succ, Z.pow_succ_r by lia. lia. Qed.

  Lemma backoff_loop_spec f i :
    jitter_ok jit → (jit ≠ None → 2 ≤ delay)%Z → (0 < delay)%Z → (limit ≤ 2 ^ 62)%Z →
    i ≤ 62 → 63 ≤ f + i →
    ∃ ws r, backoff_loop out jit cancelled cerr limit f i (Z.min (nominal i) limit) =
        BDone (interleave i ws) r ∧
      (∀ j w, ws !! j = Some w →
         wait_ok jit (nominal (i + j)) w ∧ (nominal (i + j) < limit)%Z ∧ fails (out (i + j)) ∧
         cancelled (i + j) = false) ∧
      stop_ok (i + length ws) r.
  Proof.
    intros Hj Hd2 Hd Hlim. revert i. induction f as [|f IH]; intros i Hi Hf; [lia|]. simpl.
    destruct (rerr (out i)) as [e|] eqn:He.
    2:{ exists [], (out i). split_and!; [done|done|]. simpl. rewrite Nat.add_0_r. left.
        split; [done|]. by left. }
    destruct (Z.leb_spec limit (Z.min (nominal i) limit)) as [Hle|Hlt].
    { exists [], (out i). split_and!; [done|done|]. simpl. rewrite Nat.add_0_r. left.
      split; [done|]. right. lia. }
    assert (nominal i < limit)%Z as Hnl by lia. rewrite Z.min_l by lia.
    pose proof (nominal_pos i Hd) as Hp. pose proof (nominal_ge i Hd) as Hge.
    destruct (jitter_wait i (nominal i)) as (w&Hw&Hok); [done|intros ?; specialize (Hd2 H); lia|done|].
    rewrite Hw. destruct (cancelled i) eqn:Hc.
    { exists [], (Result (rval (out i)) (Some cerr)). split_and!; [done|done|]. simpl.
      rewrite Nat.add_0_r. right. split_and!; [done|by eexists|done|done]. }
    assert (wrap64 (nominal i * 2) = 2 * nominal i)%Z as ->.
    { unfold wrap64. rewrite Z.mod_small; lia. }
    assert ((if (limit <? 2 * nominal i)%Z then limit else (2 * nominal i)%Z) =
            Z.min (nominal (S i)) limit) as ->.
    { rewrite nominal_S. destruct (Z.ltb_spec limit (2 * nominal i)); lia. }
    assert (i < 62) as Hi'.
    { destruct (decide (i < 62)); [done|]. replace i with 62 in * by lia.
      change (2 ^ Z.of_nat 62)%Z with (2 ^ 62)%Z in *. nia. }
    destruct (IH (S i)) as (ws&r&Heq&Hws&Hstop); [lia|lia|].
    exists (w :: ws), r. rewrite Heq. split_and!; [done| |].
    - intros [|j] w' Hlk; simpl in Hlk.
      + injection Hlk as <-. rewrite Nat.add_0_r. split_and!; [done|done|by eexists|done].
      + replace (i + S j) with (S i + j) by lia. by apply Hws.
    - simpl. replace (i + S (length ws)) with (S i + length ws) by lia. done.
  Qed.

  Lemma retry_backoff_spec f :
    jitter_ok jit → (jit ≠ None → 2 ≤ delay)%Z → (0 < delay)%Z → (limit ≤ 2 ^ 62)%Z → 63 ≤ f →
    ∃ ws r, retry_backoff out jit cancelled cerr delay limit f = BDone (interleave 0 ws) r ∧
      (∀ j w, ws !! j = Some w →
         wait_ok jit (nominal j) w ∧ (nominal j < limit)%Z ∧ fails (out j) ∧ cancelled j = false) ∧
      stop_ok (length ws) r.
  Proof.
    intros Hj Hd2 Hd Hlim Hf. unfold retry_backoff.
    destruct (decide (delay ≤ limit)%Z) as [Hle|Hgt].
    - destruct (backoff_loop_spec f 0) as (ws&r&H1&H2&H3); [done..|lia|lia|].
      exists ws, r. rewrite <- H1. split_and!; [|done|done]. f_equal. lia.
    - destruct f as [|f]; [lia|]. simpl. exists [], (out 0).
      assert (stop_ok 0 (out 0)) as Hs.
      { left. split; [done|]. right. lia. }
      split_and!; [|done|done].
      destruct (rerr (out 0)); [|done]. destruct (Z.leb_spec limit delay); [done|lia].
  Qed.
End backoff.

Lemma backoff_zero_diverges {V E} (out : nat → result V E) cerr limit :
  (0 < limit)%Z → (∀ i, fails (out i)) →
  ∀ f, retry_backoff out None (λ _, false) cerr 0 limit f = BFuel.
Proof.
  intros Hl Hf f. unfold retry_backoff.
  cut (∀ i, backoff_loop out None (λ _, false) cerr limit f i 0 = BFuel); [done|].
  induction f as [|f IH]; intros i; [done|].
  cbn [backoff_loop]. destruct (Hf i) as [e ->]. destruct (Z.leb_spec limit 0); [lia|].
  change (wrap64 (0 * 2)) with 0%Z. destruct (Z.ltb_spec limit 0); [lia|]. by rewrite IH.
Qed.

(** ** Rate limiter *)
Section limiter.
  Context (rate a b : Z) (Hrate : (0 ≤ rate)%Z) (Hab : (a ≤ b)%Z).

  (** Upper bound on the tokens (in nano-tokens) that can still be taken inside the window. *)
  Definition potential (l : limiter) : Z :=
    if (l_last l <? a)%Z then (rate * one_token + rate * (b - a))%Z
    else if (l_last l <=? b)%Z then (l_tokens l + rate * (b - l_last l))%Z
    else 0%Z.
  Definition lim_ok (l : limiter) : Prop := (0 ≤ l_tokens l ≤ rate * one_token)%Z.
  Definition inwin (t : Z) : bool := (a <=? t)%Z && (t <=? b)%Z.

  Lemma acquire_potential now l l' ok :
    (l_last l ≤ now)%Z → lim_ok l → acquire rate now l = (l', ok) →
    lim_ok l' ∧ l_last l' = now ∧
    (one_token * (if ok && inwin now then 1 else 0) + potential l' ≤ potential l)%Z.
  Proof.
    intros Hnow Hok. unfold acquire.
    set (t0 := (l_tokens l + (now - l_last l) * rate)%Z).
    set (t := if (rate * one_token <? t0)%Z then (rate * one_token)%Z else t0).
    assert (0 ≤ t ≤ rate * one_token ∧ t ≤ t0)%Z as Ht.
    { assert (0 ≤ (now - l_last l) * rate)%Z by (apply Z.mul_nonneg_nonneg; lia).
      unfold t, lim_ok in *. destruct (Z.ltb_spec (rate * one_token) t0); unfold t0 in *; lia. }
    clearbody t. unfold t0 in *. clear t0.
    intros H. assert (∃ c, l' = Limiter (t - c) now ∧ c = (if ok then one_token else 0%Z) ∧ (0 ≤ t - c)%Z) as (c&->&->&Hc).
    { destruct (Z.leb_spec one_token t); injection H as <- <-; eexists; split_and!; try done; try lia.
      f_equal; lia. }
    clear H. split_and!; [unfold lim_ok; simpl; destruct ok; unfold one_token in *; lia|done|].
    unfold potential, inwin, lim_ok in *. cbn [l_last l_tokens].
    destruct (Z.ltb_spec now a), (Z.ltb_spec (l_last l) a), (Z.leb_spec now b), (Z.leb_spec (l_last l) b),
      (Z.leb_spec a now); destruct ok; simpl; try lia; unfold one_token in *; nia.
  Qed.

  Lemma wait_token_potential e f l n l' n' w :
    monotone (clk e) → (l_last l ≤ clk e n)%Z → lim_ok l →
    wait_token rate e f l n = (l', n', w) → w ≠ WFuel →
    lim_ok l' ∧ (l_last l' ≤ clk e n')%Z ∧
    (one_token * (match w with WGot t => if inwin t then 1 else 0 | _ => 0 end) + potential l' ≤ potential l)%Z.
  Proof.
    intros Hm. revert l n. induction f as [|f IH]; intros l n Hl Hok; simpl.
    { intros [= <- <- <-]. done. }
    destruct (acquire rate (clk e n) l) as [l1 ok] eqn:Ha.
    destruct (acquire_potential _ _ _ _ Hl Hok Ha) as (H1&H2&H3).
    pose proof (Hm n) as Hmn.
    destruct ok.
    - intros [= <- <- <-] _. split_and!; [done|lia|]. simpl in H3. exact H3.
    - destruct (dead e n).
      + intros [= <- <- <-] _. split_and!; [done|lia|]. simpl in H3. lia.
      + intros Hw Hne. destruct (IH l1 (S n)) as (H4&H5&H6); [lia|done|done|done|].
        split_and!; [done|done|]. simpl in H3. lia.
  Qed.

  Context {V E : Type} (e : env) (out : nat → result V E) (cerr : E) (Hm : monotone (clk e)).

  Lemma retries_in_cons x es :
    Z.of_nat (retries_in a b (x :: es)) =
    ((match x with RRetry _ t => if inwin t then 1 else 0 | _ => 0 end) + Z.of_nat (retries_in a b es))%Z.
  Proof.
    unfold retries_in, inwin. simpl. destruct x as [|i t]; [lia|].
    destruct ((a <=? t)%Z && (t <=? b)%Z); simpl; lia.
  Qed.
  Lemma retries_in_app es es' : retries_in a b (es ++ es') = retries_in a b es + retries_in a b es'.
  Proof. unfold retries_in. by rewrite List.filter_app, app_length. Qed.

  Definition st_ok (st : rlstate) : Prop :=
    lim_ok (rl_lim st) ∧ (l_last (rl_lim st) ≤ clk e (rl_polls st))%Z.

  Lemma rl_loop_potential f rem i st cur st' es r :
    st_ok st → rl_loop rate e out cerr f rem i st cur = Some (st', es, r) →
    st_ok st' ∧
    (one_token * Z.of_nat (retries_in a b es) + potential (rl_lim st') ≤ potential (rl_lim st))%Z.
  Proof.
    revert i st cur st' es r. induction rem as [|rem IH]; intros i st cur st' es r [Hok Hlast]; cbn [rl_loop].
    { intros [= <- <- <-]. split; [done|]. change (retries_in a b []) with 0. lia. }
    destruct (wait_token rate e f (rl_lim st) (rl_polls st)) as [[l' n'] w] eqn:Hw.
    destruct w as [t| |]; [| |done].
    - destruct (wait_token_potential _ _ _ _ _ _ _ Hm Hlast Hok Hw) as (H1&H2&H3); [done|].
      destruct (rerr (out (rl_calls st))).
      + destruct (rl_loop _ _ _ _ _ rem _ _ _) as [[[st1 es1] r1]|] eqn:Hl; [|done].
        intros [= <- <- <-]. apply IH in Hl as [H4 H5]; [|done]. split; [done|].
        rewrite retries_in_cons. cbv iota beta in *. cbn [rl_lim] in *. destruct (inwin t); unfold one_token in *; lia.
      + intros [= <- <- <-]. split; [done|]. rewrite retries_in_cons. change (retries_in a b []) with 0. cbv iota beta in *. cbn [rl_lim] in *. destruct (inwin t); unfold one_token in *; lia.
    - destruct (wait_token_potential _ _ _ _ _ _ _ Hm Hlast Hok Hw) as (H1&H2&H3); [done|].
      intros Hl. apply IH in Hl as [H4 H5]; [|done]. split; [done|]. simpl in H5. lia.
  Qed.

  Lemma rl_request_potential max f st st' es r :
    st_ok st → rl_request rate max e out cerr f st = Some (st', es, r) →
    st_ok st' ∧
    (one_token * Z.of_nat (retries_in a b es) + potential (rl_lim st') ≤ potential (rl_lim st))%Z.
  Proof.
    intros Hst. unfold rl_request. destruct (rerr (out (rl_calls st))).
    - destruct (rl_loop _ _ _ _ _ _ _ _ _) as [[[st1 es1] r1]|] eqn:Hl; [|done].
      intros [= <- <- <-]. apply rl_loop_potential in Hl as [H1 H2]; [|done]. split; [done|].
      rewrite retries_in_cons. exact H2.
    - intros [= <- <- <-]. split; [done|]. rewrite retries_in_cons. change (retries_in a b []) with 0. cbn [rl_lim]. lia.
  Qed.

  Lemma rl_requests_potential max f k st st' es :
    st_ok st → rl_requests rate max e out cerr f k st = Some (st', es) →
    st_ok st' ∧
    (one_token * Z.of_nat (retries_in a b es) + potential (rl_lim st') ≤ potential (rl_lim st))%Z.
  Proof.
    revert st st' es. induction k as [|k IH]; intros st st' es Hst; cbn [rl_requests].
    { intros [= <- <-]. split; [done|]. change (retries_in a b []) with 0. lia. }
    destruct (rl_request _ _ _ _ _ _ _) as [[[st1 es1] r1]|] eqn:Hr; [|done].
    destruct (rl_requests _ _ _ _ _ _ k _) as [[st2 es2]|] eqn:Hl; [|done].
    intros [= <- <-]. apply rl_request_potential in Hr as [H1 H2]; [|done].
    apply IH in Hl as [H3 H4]; [|done]. split; [done|]. rewrite retries_in_app.
    unfold one_token in *. lia.
  Qed.

  Lemma potential_nonneg l : lim_ok l → (0 ≤ potential l)%Z.
  Proof.
    unfold lim_ok, potential. intros. destruct (Z.ltb_spec (l_last l) a); [unfold one_token in *; nia|].
    destruct (Z.leb_spec (l_last l) b); [nia|lia].
  Qed.

  Lemma rl_budget max f k now st' es :
    (now ≤ clk e 0)%Z →
    rl_requests rate max e out cerr f k (RL (new_limiter rate now) 0 0) = Some (st', es) →
    (one_token * Z.of_nat (retries_in a b es) ≤ rate * one_token + rate * (b - a))%Z.
  Proof.
    intros Hn Hr. apply rl_requests_potential in Hr as [[H1 _] H2].
    - pose proof (potential_nonneg _ H1).
      assert (potential (new_limiter rate now) ≤ rate * one_token + rate * (b - a))%Z; [|simpl in *; lia].
      unfold potential, new_limiter. simpl. destruct (Z.ltb_spec now a); [lia|].
      destruct (Z.leb_spec now b); unfold one_token; nia.
    - split; simpl; [|done]. unfold lim_ok, new_limiter, one_token. simpl. lia.
  Qed.
End limiter.

Section rlreq.
  Context {V E : Type} (rate : Z) (e : env) (out : nat → result V E) (cerr : E).

  Lemma rl_loop_spec f rem i st cur st' es r :
    fails cur → rl_loop rate e out cerr f rem i st cur = Some (st', es, r) →
    length es ≤ rem ∧ rl_calls st' = rl_calls st + length es ∧
    Forall (λ ev, match ev with RRetry _ _ => True | _ => False end) es ∧
    (∀ j, S j < length es → fails (out (rl_calls st + j))) ∧
    (succeeds r → 0 < length es ∧ r = out (rl_calls st + (length es - 1))) ∧
    (fails r → ∀ j, j < length es → fails (out (rl_calls st + j))) ∧
    (∀ x, rerr r = Some x → x = cerr ∨ (∃ j, j < length es ∧ rerr (out (rl_calls st + j)) = Some x) ∨ rerr cur = Some x).
  Proof.
    revert i st cur st' es r. induction rem as [|rem IH]; intros i st cur st' es r Hcur; cbn [rl_loop].
    { intros [= <- <- <-]. simpl. split_and!; try done; try lia.
      - intros H. destruct Hcur as [x Hx]. rewrite H in Hx. done.
      - intros x Hx. by do 2 right. }
    destruct (wait_token rate e f (rl_lim st) (rl_polls st)) as [[l' n'] w] eqn:Hw.
    destruct w as [t| |]; [| |done].
    - destruct (rerr (out (rl_calls st))) as [x0|] eqn:He.
      + destruct (rl_loop _ _ _ _ _ rem _ _ _) as [[[st1 es1] r1]|] eqn:Hl; [|done].
        intros [= <- <- <-]. apply IH in Hl as (H1&H2&H3&H4&H5&H6&H7); [|by eexists].
        cbn [rl_calls length] in *. split_and!.
        * lia.
        * lia.
        * by constructor.
        * intros [|j] Hj; [rewrite Nat.add_0_r; by eexists|].
          replace (rl_calls st + S j) with (S (rl_calls st) + j) by lia. apply H4. lia.
        * intros Hs. destruct (H5 Hs) as [Hp ->]. split; [lia|]. f_equal. lia.
        * intros Hfr [|j] Hj; [rewrite Nat.add_0_r; by eexists|].
          replace (rl_calls st + S j) with (S (rl_calls st) + j) by lia. apply H6; [done|lia].
        * intros x Hx. destruct (H7 x Hx) as [?|[(j&Hj&Hjx)|Hx0]]; [by left|right; left|right; left].
          -- exists (S j). split; [lia|]. by replace (rl_calls st + S j) with (S (rl_calls st) + j) by lia.
          -- exists 0. split; [lia|]. rewrite Nat.add_0_r. done.
      + intros [= <- <- <-]. cbn [rl_calls length]. split_and!.
        * lia.
        * lia.
        * by constructor.
        * lia.
        * intros _. split; [lia|]. by rewrite Nat.add_0_r.
        * intros [x Hx]. congruence.
        * intros x Hx. congruence.
    - intros Hl. apply IH in Hl as (H1&H2&H3&H4&H5&H6&H7); [|by eexists].
      cbn [rl_calls rerr] in *. split_and!; try done; [lia|].
      intros x Hx. destruct (H7 x Hx) as [?|[?|[= <-]]]; auto.
  Qed.

  Lemma rl_request_spec max f st st' es r :
    rl_request rate max e out cerr f st = Some (st', es, r) →
    1 ≤ length es ∧ (Z.of_nat (length es) ≤ Z.max 1 max)%Z ∧
    rl_calls st' = rl_calls st + length es ∧
    (∀ j, S j < length es → fails (out (rl_calls st + j))) ∧
    (succeeds r → r = out (rl_calls st + (length es - 1))) ∧
    (fails r → ∀ j, j < length es → fails (out (rl_calls st + j))) ∧
    (∀ x, rerr r = Some x → x = cerr ∨ ∃ j, j < length es ∧ rerr (out (rl_calls st + j)) = Some x).
  Proof.
    unfold rl_request. destruct (rerr (out (rl_calls st))) as [x0|] eqn:He.
    - destruct (rl_loop _ _ _ _ _ _ _ _ _) as [[[st1 es1] r1]|] eqn:Hl; [|done].
      intros [= <- <- <-]. apply rl_loop_spec in Hl as (H1&H2&H3&H4&H5&H6&H7); [|by eexists].
      cbn [rl_calls length] in *. split_and!.
      * lia.
      * lia.
      * lia.
      * intros [|j] Hj; [rewrite Nat.add_0_r; by eexists|].
        replace (rl_calls st + S j) with (S (rl_calls st) + j) by lia. apply H4. lia.
      * intros Hs. destruct (H5 Hs) as [Hp ->]. f_equal. lia.
      * intros Hfr [|j] Hj; [rewrite Nat.add_0_r; by eexists|].
        replace (rl_calls st + S j) with (S (rl_calls st) + j) by lia. apply H6; [done|lia].
      * intros x Hx. destruct (H7 x Hx) as [?|[(j&Hj&Hjx)|Hx0]]; [by left|right|right].
        -- exists (S j). split; [lia|]. by replace (rl_calls st + S j) with (S (rl_calls st) + j) by lia.
        -- exists 0. split; [lia|]. rewrite Nat.add_0_r. done.
    - intros [= <- <- <-]. cbn [rl_calls length]. split_and!.
      * lia.
      * lia.
      * lia.
      * lia.
      * intros _. by rewrite Nat.add_0_r.
      * intros [x Hx]. congruence.
      * intros x Hx. congruence.
  Qed.
End rlreq.

(** Rate 0: no token is ever obtained, so a failing call waits until its context is cancelled. *)
Lemma wait_token_zero e f l n :
  l_tokens l = 0%Z → (∀ m, dead e m = false) → snd (wait_token 0 e f l n) = WFuel.
Proof.
  intros Hl Hd. revert l n Hl. induction f as [|f IH]; intros l n Hl; [done|]. simpl.
  unfold acquire. rewrite Hl, Z.mul_0_r, Z.add_0_r. simpl. rewrite Hd. by apply IH.
Qed.

Lemma rl_zero_blocks {V E} (out : nat → result V E) cerr max e f now :
  (2 ≤ max)%Z → fails (out 0) → (∀ m, dead e m = false) →
  rl_request 0 max e out cerr f (RL (new_limiter 0 now) 0 0) = None.
Proof.
  intros Hmax [x Hx] Hd. unfold rl_request. cbn [rl_calls rl_lim rl_polls]. rewrite Hx.
  destruct (Z.to_nat (max - 1)) as [|k] eqn:Hk; [lia|]. cbn [rl_loop rl_lim rl_polls].
  pose proof (wait_token_zero e f (new_limiter 0 now) 0 eq_refl Hd) as Hw.
  destruct (wait_token 0 e f (new_limiter 0 now) 0) as [[l' n'] w]. simpl in Hw. by subst.
Qed.

(** ** Token bucket *)
Section bucket.
  Context {V E : Type} (c : bucket_cfg).
  Implicit Types (h : list (result V E * result V E)).

  Lemma tb_run_spec tb h tb' l :
    (0 ≤ bc_cost c)%Z → (0 ≤ bc_refill c)%Z → (tb ≤ bc_cap c)%Z →
    tb_run c tb h = (tb', l) →
    length l = length h ∧ (tb' ≤ bc_cap c)%Z ∧
    (tb' + count l.*1 * bc_cost c ≤ tb + count l.*2 * bc_refill c)%Z ∧
    (count l.*2 ≤ count l.*1)%Z ∧
    (Z.min (bc_one c) tb ≤ tb')%Z ∧ (0 < count l.*1 → bc_one c ≤ tb)%Z.
  Proof.
    intros Hc Hr. revert tb tb' l. induction h as [|[o1 o2] h IH]; intros tb tb' l Hcap; cbn [tb_run].
    { intros [= <- <-]. unfold count. simpl. split_and!; try done; lia. }
    destruct (tb_request c tb o1 o2) as [[tb1 rt] r] eqn:Hreq.
    destruct (tb_run c tb1 h) as [tb2 l2] eqn:Hrun. intros [= <- <-].
    assert (tb1 ≤ bc_cap c ∧
      tb1 + (if rt then bc_cost c else 0) ≤ tb + (if rt && bool_decide (rerr r = None) then bc_refill c else 0) ∧
      Z.min (bc_one c) tb ≤ tb1 ∧ (rt = true → bc_one c ≤ tb) ∧ (rt = false → tb1 = tb))%Z as (H1&H2&H3&H4&H5).
    { unfold tb_request in Hreq. destruct (rerr o1).
      - destruct (Z.ltb_spec (tb - bc_cost c) (bc_one c)).
        + injection Hreq as <- <- <-. simpl. split_and!; try done; lia.
        + destruct (rerr o2) eqn:E2; injection Hreq as <- <- <-; simpl.
          * rewrite E2. simpl. split_and!; try done; lia.
          * rewrite E2. simpl. split_and!; try done; lia.
      - injection Hreq as <- <- <-. simpl. split_and!; try done; lia. }
    destruct (IH tb1 tb2 l2 H1 Hrun) as (I1&I2&I3&I4&I5&I6).
    assert (∀ (x : bool) xs, count (x :: xs) = ((if x then 1 else 0) + count xs)%Z) as Hcount.
    { intros x xs. unfold count. destruct x; simpl; lia. }
    rewrite !fmap_cons, !Hcount. cbn [fst snd length]. split_and!.
    - lia.
    - done.
    - destruct rt; simpl in *; [destruct (bool_decide (rerr r = None))|]; lia.
    - destruct rt; simpl; [destruct (bool_decide (rerr r = None))|]; lia.
    - destruct rt; [lia|]. rewrite H5 in * by done. lia.
    - intros Hpos. destruct rt; [by apply H4|]. rewrite <- H5 by done. apply I6. lia.
  Qed.

  Lemma count_nonneg l : (0 ≤ count l)%Z.
  Proof. unfold count. lia. Qed.

  Lemma tb_bounded tb' l h :
    (0 ≤ bc_cost c)%Z → (0 ≤ bc_refill c)%Z → tb_run c (bc_cap c) h = (tb', l) →
    (tb' ≤ bc_cap c)%Z ∧ (Z.min (bc_one c) (bc_cap c) ≤ tb')%Z ∧
    (0 < count l.*1 → count l.*1 * bc_cost c ≤ bc_cap c - bc_one c + count l.*2 * bc_refill c)%Z.
  Proof.
    intros Hc Hr Hrun.
    destruct (tb_run_spec _ _ _ _ Hc Hr (Z.le_refl _) Hrun) as (H1&H2&H3&H4&H5&H6).
    split_and!; [done|done|]. intros Hp. specialize (H6 Hp). lia.
  Qed.

  Lemma tb_lifetime tb' l h :
    (0 ≤ bc_refill c ≤ bc_cost c)%Z → tb_run c (bc_cap c) h = (tb', l) →
    (0 < count l.*1 → count l.*1 * (bc_cost c - bc_refill c) ≤ bc_cap c - bc_one c)%Z.
  Proof.
    intros Hr Hrun Hp.
    destruct (tb_run_spec _ _ _ _ ltac:(lia) ltac:(lia) (Z.le_refl _) Hrun) as (H1&H2&H3&H4&H5&H6).
    specialize (H6 Hp). pose proof (count_nonneg l.*2). nia.
  Qed.

  Lemma tb_exhausted tb h :
    (tb - bc_cost c < bc_one c)%Z → tb_run c tb h = (tb, replicate (length h) (false, false)).
  Proof.
    intros Hlt. induction h as [|[o1 o2] h IH]; [done|]. cbn [tb_run]. unfold tb_request.
    destruct (rerr o1); [destruct (Z.ltb_spec (tb - bc_cost c) (bc_one c)); [|lia]|]; by rewrite IH.
  Qed.
End bucket.

Lemma tb_request_spec {V E} (c : bucket_cfg) tb (o1 o2 : result V E) tb' retried r :
  tb_request c tb o1 o2 = (tb', retried, r) →
  (retried = true ↔ fails o1 ∧ (bc_one c ≤ tb - bc_cost c)%Z) ∧
  r = (if retried then o2 else o1) ∧
  tb' = (if retried then
           if rerr o2 then (tb - bc_cost c)%Z else Z.min (tb - bc_cost c + bc_refill c) (bc_cap c)
         else tb).
Proof.
  unfold tb_request, fails. destruct (rerr o1) as [x|] eqn:E1.
  - destruct (Z.ltb_spec (tb - bc_cost c) (bc_one c)).
    + intros [= <- <- <-]. split_and!; [|done|done]. split; [done|]. intros [_ ?]. lia.
    + destruct (rerr o2); intros [= <- <- <-]; split_and!; try done; split; try done;
        intros _; (split; [by eexists|lia]).
  - intros [= <- <- <-]. split_and!; [|done|done]. split; [done|]. intros [[? ?] _]. done.
Qed.
