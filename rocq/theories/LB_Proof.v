From Coq Require Import ZifyBool ZifyNat ZifyN Lia.
From Verif Require Import LB_Model LB_Spec.
Ltac Zify.zify_post_hook ::= Z.div_mod_to_equations.

Section lb.
  Context {C : Type}.
  Implicit Types (cl : list C).

  Lemma serve_gen cl i reqs :
    i < length cl →
    ∃ b l, serve (Balancer cl i (length cl)) reqs = Some (b, l) ∧
      l.*1 = reqs ∧
      b = Balancer cl ((i + length reqs) mod length cl) (length cl) ∧
      (∀ j, j < length reqs → l.*2 !! j = cl !! ((i + j) mod length cl)).
  Proof.
    revert i. induction reqs as [|t reqs IH]; intros i Hi; simpl.
    - eexists _, []. split_and!; [done|done| |intros; lia]. f_equal. rewrite Nat.add_0_r.
      by rewrite Nat.mod_small.
    - unfold pick_client. cbn [lb_clients lb_idx lb_n].
      destruct (lookup_lt_is_Some_2 cl i Hi) as [c Hc]. rewrite Hc.
      destruct (IH ((i + 1) mod length cl)) as (b&l&H1&H2&H3&H4).
      { apply Nat.mod_upper_bound. lia. }
      rewrite H1. eexists _, _. split_and!; [done|rewrite fmap_cons, H2; done| |].
      + rewrite H3. f_equal. rewrite Nat.add_mod_idemp_l by lia. f_equal. lia.
      + rewrite fmap_cons. intros [|j] Hj; cbn [lookup list_lookup snd].
        * rewrite Nat.add_0_r, Nat.mod_small by done. done.
        * rewrite H4 by lia. rewrite Nat.add_mod_idemp_l by lia. f_equal. f_equal. lia.
  Qed.

  Lemma serve_new cl reqs :
    cl ≠ [] →
    ∃ b l, serve (new_balancer cl) reqs = Some (b, l) ∧ l.*1 = reqs ∧
      ∀ j, j < length reqs → l.*2 !! j = cl !! (j mod length cl).
  Proof.
    intros Hne. destruct (serve_gen cl 0 reqs) as (b&l&H1&H2&_&H4).
    { destruct cl; [done|simpl; lia]. }
    eexists _, _. split_and!; [exact H1|done|]. intros j Hj. by rewrite H4.
  Qed.

  (** How many of the picks j < k go to position i. *)
  Lemma hits_closed n i k : i < n → hits n i k = (k + (n - 1 - i)) / n.
  Proof.
    intros Hi. induction k as [|k IH]; [simpl; symmetry; apply Nat.div_small; lia|].
    unfold hits in *. rewrite seq_S, List.filter_app, app_length, IH. simpl.
    set (x := k + (n - 1 - i)). replace (S (k + (n - 1 - i))) with (S x) by lia.
    pose proof (Nat.div_mod x n ltac:(lia)) as Hx. pose proof (Nat.mod_upper_bound x n ltac:(lia)) as Hxm.
    pose proof (Nat.div_mod k n ltac:(lia)) as Hk. pose proof (Nat.mod_upper_bound k n ltac:(lia)) as Hkm.
    case_bool_decide as Hc; simpl.
    - (* k mod n = i : x = n*(k/n) + n - 1 *)
      assert (x = n * (k / n) + (n - 1)) as Hx1 by lia.
      assert (x / n = k / n) as ->. { symmetry. apply (Nat.div_unique _ _ _ (n - 1)); lia. }
      apply (Nat.div_unique _ _ _ 0); lia.
    - destruct (decide (S (x mod n) = n)) as [He|Hne].
      + exfalso. apply Hc.
        (* S x = n*(x/n+1), k = S x - n + i *)
        assert (k + n = n * (x / n) + n + i) as Hk2 by (unfold x in *; lia).
        symmetry. apply (Nat.mod_unique _ _ (x / n)); lia.
      + rewrite Nat.add_0_r. apply (Nat.div_unique _ _ _ (S (x mod n))); lia.
  Qed.

  Lemma hits_fair n i k : i < n → k / n ≤ hits n i k ≤ (k + n - 1) / n.
  Proof.
    intros Hi. rewrite hits_closed by done. split; apply Nat.div_le_mono; lia.
  Qed.

  Lemma ceil_floor n k : 0 < n → (k + n - 1) / n ≤ k / n + 1.
  Proof.
    intros Hn. pose proof (Nat.div_mod k n ltac:(lia)) as Hk. pose proof (Nat.mod_upper_bound k n ltac:(lia)).
    apply Nat.lt_succ_r. apply Nat.div_lt_upper_bound; [lia|]. nia.
  Qed.

  (** Any window of [n] consecutive picks hits [n] distinct positions. *)
  Lemma window_distinct n s j j' : j < n → j' < n → (s + j) mod n = (s + j') mod n → j = j'.
  Proof.
    intros Hj Hj' H. pose proof (Nat.div_mod (s + j) n ltac:(lia)). pose proof (Nat.div_mod (s + j') n ltac:(lia)).
    rewrite H in *.
    assert ((s + j) / n = (s + j') / n ∨ (s + j) / n + 1 ≤ (s + j') / n ∨ (s + j') / n + 1 ≤ (s + j) / n) as [?|[?|?]] by lia; nia.
  Qed.

  Lemma filter_length_Forall2 {A B} (f : A → bool) (g : B → bool) l k :
    Forall2 (λ a b, f a = g b) l k → length (List.filter f l) = length (List.filter g k).
  Proof.
    induction 1 as [|a b l k Hab _ IH]; simpl; [done|]. rewrite Hab. destruct (g b); simpl; lia.
  Qed.

  Lemma served_hits `{EqDecision C} cl reqs b l i c :
    NoDup cl → cl !! i = Some c → serve (new_balancer cl) reqs = Some (b, l) →
    served c l = hits (length cl) i (length reqs).
  Proof.
    intros Hnd Hi Hs. assert (i < length cl) as Hlt by (by eapply lookup_lt_Some).
    destruct (serve_new cl reqs) as (b'&l'&H1&H2&H3).
    { intros ->. done. }
    rewrite Hs in H1. injection H1 as <- <-. unfold served, hits.
    assert (length l = length reqs) as Hlen by (rewrite <- H2; by rewrite fmap_length).
    apply filter_length_Forall2, Forall2_same_length_lookup_2; [by rewrite seq_length|].
    intros j x y Hx Hy. apply lookup_seq in Hy as [-> Hy]. simpl.
    specialize (H3 j Hy). rewrite list_lookup_fmap, Hx in H3. simpl in H3.
    apply bool_decide_ext. split.
    - intros Hc. rewrite Hc in H3. symmetry in H3. eapply NoDup_lookup; eauto.
    - intros Hj. rewrite Hj, Hi in H3. congruence.
  Qed.

  Lemma served_fair `{EqDecision C} cl reqs b l c :
    NoDup cl → c ∈ cl → serve (new_balancer cl) reqs = Some (b, l) →
    length reqs / length cl ≤ served c l ≤ (length reqs + length cl - 1) / length cl.
  Proof.
    intros Hnd [i Hi]%elem_of_list_lookup Hs. rewrite (served_hits _ _ _ _ _ _ Hnd Hi Hs).
    apply hits_fair. by eapply lookup_lt_Some.
  Qed.

  Lemma window_clients cl reqs b l s j j' :
    NoDup cl → serve (new_balancer cl) reqs = Some (b, l) →
    j < length cl → j' < length cl → s + j < length reqs → s + j' < length reqs →
    l.*2 !! (s + j) = l.*2 !! (s + j') → j = j'.
  Proof.
    intros Hnd Hs Hj Hj' Hr Hr' Heq.
    destruct (serve_new cl reqs) as (b'&l'&H1&H2&H3); [intros ->; simpl in *; lia|].
    rewrite Hs in H1. injection H1 as <- <-. rewrite !H3 in Heq by done.
    assert (∀ x, x mod length cl < length cl) as Hm by (intros; apply Nat.mod_upper_bound; lia).
    destruct (lookup_lt_is_Some_2 cl _ (Hm (s + j))) as [c Hc]. rewrite Hc in Heq. symmetry in Heq.
    eapply window_distinct; [done|done|]. eapply NoDup_lookup; eauto.
  Qed.
End lb.
