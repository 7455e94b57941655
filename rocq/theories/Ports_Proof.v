From Coq Require Import ZifyBool ZifyNat ZifyN Lia.
From Verif Require Import Ports_Model Ports_Spec.
Ltac Zify.zify_post_hook ::= Z.div_mod_to_equations.

Lemma port_of_set h p q v :
  port_of (set_port h p v) q = if bool_decide (p = q ∧ is_Some (h !! p)) then v else port_of h q.
Proof.
  unfold port_of, deref, set_port. destruct (decide (p = q)) as [<-|Hne].
  - rewrite lookup_alter. destruct (h !! p) eqn:E; simpl.
    + rewrite bool_decide_true; eauto.
    + rewrite bool_decide_false; [done|]. intros [_ [? ?]]; done.
  - rewrite lookup_alter_ne by done. rewrite bool_decide_false; [done|]. naive_solver.
Qed.
Lemma pref_of_set h p q v : pref_of (set_port h p v) q = pref_of h q.
Proof.
  unfold pref_of, deref, set_port. destruct (decide (p = q)) as [<-|Hne].
  - rewrite lookup_alter. by destruct (h !! p).
  - by rewrite lookup_alter_ne.
Qed.
Lemma start_port_set h p q v : start_port (set_port h p v) q = start_port h q.
Proof. unfold start_port. by rewrite pref_of_set. Qed.

(** ** First loop *)
Lemma collect_spec h binds ports pre asg :
  match collect h binds ports pre asg with
  | inl (ports', pre', asg') =>
      pre' = pre ++ preset h binds ∧ asg' = asg ++ unset h binds ∧
      NoDup (port_of h <$> preset h binds) ∧
      (∀ b, b ∈ preset h binds → ports !! port_of h b = None) ∧
      (∀ c, is_Some (ports' !! c) ↔ is_Some (ports !! c) ∨ c ∈ port_of h <$> preset h binds) ∧
      size ports' = size ports + length (preset h binds)
  | inr (x, y) => True
  end.
Proof.
  revert ports pre asg. induction binds as [|b binds IH]; intros ports pre asg; simpl.
  - unfold preset, unset. simpl. rewrite !app_nil_r. split_and!; try done; try constructor; try lia; try set_solver.
  - unfold preset, unset in *. destruct (bool_decide_reflect (port_of h b = 0%N)) as [E|E].
    + rewrite !filter_cons. rewrite decide_False by naive_solver. rewrite (decide_True) by done.
      specialize (IH ports pre (asg ++ [b])). destruct (collect _ _ _ _ _) as [[[ports' pre'] asg']|[x y]]; [|done].
      by rewrite <- app_assoc in IH.
    + rewrite !filter_cons. rewrite decide_True by done. rewrite decide_False by done.
      destruct (ports !! port_of h b) as [o|] eqn:Ep; [done|].
      specialize (IH (<[port_of h b:=b]> ports) (pre ++ [b]) asg).
      destruct (collect _ _ _ _ _) as [[[ports' pre'] asg']|[x y]]; [|done].
      destruct IH as (Hpre&Hasg&Hnd&Hfresh&Hdom&Hsz). split_and!.
      * by rewrite <- app_assoc in Hpre.
      * done.
      * rewrite fmap_cons. constructor; [|done]. intros Hin.
        apply elem_of_list_fmap in Hin as (b'&Heq&Hb'). specialize (Hfresh b' Hb').
        rewrite <- Heq, lookup_insert in Hfresh. done.
      * intros b' [->|Hb']%elem_of_cons; [done|]. specialize (Hfresh b' Hb').
        by apply lookup_insert_None in Hfresh as [? _].
      * intros c. rewrite Hdom, fmap_cons, elem_of_cons.
        destruct (decide (c = port_of h b)) as [->|Hc].
        -- rewrite lookup_insert. naive_solver.
        -- rewrite lookup_insert_ne by done. naive_solver.
      * rewrite Hsz. rewrite map_size_insert_None by done. simpl. lia.
Qed.

Lemma collect_ok h binds ports pre asg :
  NoDup (port_of h <$> preset h binds) →
  (∀ b, b ∈ preset h binds → ports !! port_of h b = None) →
  ∃ r, collect h binds ports pre asg = inl r.
Proof.
  revert ports pre asg. induction binds as [|b binds IH]; intros ports pre asg Hnd Hfr; simpl; [eauto|].
  unfold preset in *. rewrite filter_cons in Hnd, Hfr.
  destruct (bool_decide_reflect (port_of h b = 0%N)) as [E|E].
  - rewrite decide_False in Hnd, Hfr by naive_solver. by apply IH.
  - rewrite decide_True in Hnd, Hfr by done. rewrite (Hfr b) by left.
    rewrite fmap_cons in Hnd. apply NoDup_cons in Hnd as [Hnin Hnd]. apply IH; [done|].
    intros b' Hb'. rewrite lookup_insert_ne.
    + apply Hfr. by right.
    + intros Heq. apply Hnin. rewrite Heq. by apply elem_of_list_fmap_1.
Qed.

Lemma collect_conflict h binds ports pre asg x y :
  collect h binds ports pre asg = inr (x, y) →
  (∀ c b, ports !! c = Some b → port_of h b = c ∧ b ∈ pre) →
  port_of h x = port_of h y ∧ port_of h y ≠ 0%N ∧ y ∈ binds ∧ (x ∈ pre ∨ x ∈ binds).
Proof.
  revert ports pre asg. induction binds as [|b binds IH]; intros ports pre asg; simpl; [done|].
  destruct (bool_decide_reflect (port_of h b = 0%N)) as [E|E].
  - intros Hc Hinv. destruct (IH _ _ _ Hc Hinv) as (?&?&?&?). set_solver.
  - destruct (ports !! port_of h b) as [o|] eqn:Ep.
    + intros [= <- <-] Hinv. destruct (Hinv _ _ Ep). set_solver.
    + intros Hc Hinv. destruct (IH _ _ _ Hc) as (?&?&?&?).
      { intros c b'. destruct (decide (port_of h b = c)) as [<-|Hne].
        - rewrite lookup_insert. intros [= <-]. set_solver.
        - rewrite lookup_insert_ne by done. intros H. apply Hinv in H. set_solver. }
      set_solver.
Qed.

(** ** The search for a free port *)
Lemma search_free f ports c p : search f ports c = Some p → ports !! p = None.
Proof.
  revert c. induction f as [|f IH]; intros c; simpl; [done|].
  destruct (ports !! c) eqn:E; [apply IH|]. by intros [= <-].
Qed.
Lemma search_range f ports c p : (c < 65536)%N → search f ports c = Some p → (p < 65536)%N.
Proof.
  revert c. induction f as [|f IH]; intros c Hc; simpl; [done|].
  destruct (ports !! c) eqn:E.
  - apply IH. unfold next_port. lia.
  - by intros [= <-].
Qed.
Lemma search_mono f f' ports c p : search f ports c = Some p → f ≤ f' → search f' ports c = Some p.
Proof.
  revert f' c. induction f as [|f IH]; intros f' c H Hle; simpl in H; [done|].
  destruct f' as [|f']; [lia|]. simpl. destruct (ports !! c); [|done]. apply IH; [done|lia].
Qed.

(** No wrap: with room above the starting point the search ends in range and without wrapping. *)
Lemma search_room (vis : gset N) f ports c c0 :
  (c0 + N.of_nat (size ports) < 65536)%N →
  (∀ q, q ∈ vis ↔ (c0 ≤ q < c)%N) → N.of_nat (size vis) = (c - c0)%N → (c0 ≤ c)%N →
  vis ⊆ dom ports → size ports < size vis + f →
  ∃ p, search f ports c = Some p ∧ (c ≤ p)%N ∧ (p ≤ c0 + N.of_nat (size ports))%N.
Proof.
  revert vis c. induction f as [|f IH]; intros vis c Hroom Hvis Hsz Hle Hsub Hf.
  - apply subseteq_size in Hsub. rewrite size_dom in Hsub. lia.
  - apply subseteq_size in Hsub as Hss. rewrite size_dom in Hss. simpl.
    destruct (ports !! c) eqn:E.
    + assert (c ∉ vis) as Hnin by (rewrite Hvis; lia).
      assert ({[c]} ∪ vis ⊆ dom ports) as Hsub'.
      { intros q Hq. apply elem_of_union in Hq as [->%elem_of_singleton|Hq]; [|by apply Hsub].
        apply elem_of_dom. eauto. }
      assert (size ({[c]} ∪ vis) = S (size vis)) as Hsz'.
      { rewrite size_union by set_solver. rewrite size_singleton. lia. }
      pose proof (subseteq_size _ _ Hsub') as Hss'. rewrite size_dom, Hsz' in Hss'.
      assert (next_port c = c + 1)%N as Hn by (unfold next_port; apply N.mod_small; lia).
      destruct (IH ({[c]} ∪ vis) (c + 1)%N) as (p&Hp&Hp1&Hp2); try done; try lia.
      * intros q. rewrite elem_of_union, elem_of_singleton, Hvis. lia.
      * exists p. rewrite Hn. split; [done|]. lia.
    + exists c. split; [done|]. lia.
Qed.

Lemma search_no_wrap f ports c :
  (c + N.of_nat (size ports) < 65536)%N → size ports < f →
  ∃ p, search f ports c = Some p ∧ (c ≤ p)%N ∧ (p < 65536)%N.
Proof.
  intros Hroom Hf. destruct (search_room ∅ f ports c c) as (p&Hp&H1&H2); try done; try lia.
  - intros q. rewrite elem_of_empty. lia.
  - rewrite size_empty. lia.
  - exists p. split; [done|]. lia.
Qed.

(** If every port is taken the search never ends. *)
Lemma search_full f ports c :
  (∀ q, (q < 65536)%N → is_Some (ports !! q)) → (c < 65536)%N → search f ports c = None.
Proof.
  intros Hfull. revert c. induction f as [|f IH]; intros c Hc; simpl; [done|].
  destruct (Hfull c Hc) as [x ->]. apply IH. unfold next_port. lia.
Qed.

(** ** Second loop *)
Lemma assign_loop_spec f h ports asg h' ports' :
  assign_loop f h ports asg = Some (h', ports') →
  (∀ b, b ∈ asg → is_Some (h !! b)) →
  (∀ b, b ∉ asg → h' !! b = h !! b) ∧
  dom h' = dom h ∧
  (∀ b, pref_of h' b = pref_of h b) ∧
  (∀ b, b ∈ asg → ports !! port_of h' b = None ∧ ports' !! port_of h' b = Some b) ∧
  (∀ c, is_Some (ports !! c) → ports' !! c = ports !! c).
Proof.
  revert h ports. induction asg as [|b asg IH]; intros h ports H Hin; simpl in H.
  - injection H as <- <-. split_and!; try done; intros b Hb; by apply elem_of_nil in Hb.
  - destruct (search f ports (start_port h b)) as [c|] eqn:Es; [|done].
    apply search_free in Es as Hfree.
    destruct (IH _ _ H) as (Hframe&Hdom&Hpref&Hport&Hkeep).
    { intros b' Hb'. apply elem_of_dom. unfold set_port. rewrite dom_alter_L. apply elem_of_dom.
      apply Hin. by right. }
    split_and!.
    + intros b' Hb'. rewrite Hframe by set_solver. unfold set_port. rewrite lookup_alter_ne; [done|set_solver].
    + rewrite Hdom. unfold set_port. by rewrite dom_alter_L.
    + intros b'. rewrite Hpref. apply pref_of_set.
    + intros b' Hb'. destruct (decide (b' ∈ asg)) as [Hb2|Hb2].
      * destruct (Hport b' Hb2) as [Hp1 Hp2]. split; [|done].
        by apply lookup_insert_None in Hp1 as [? _].
      * assert (b' = b) as -> by set_solver.
        assert (port_of h' b = c) as ->.
        { unfold port_of, deref. rewrite Hframe by done. fold (deref (set_port h b c) b).
          fold (port_of (set_port h b c) b). rewrite port_of_set, bool_decide_true; [done|].
          split; [done|]. apply Hin. by left. }
        split; [done|]. rewrite Hkeep; rewrite lookup_insert; eauto.
    + intros c' Hc'. assert (c' ≠ c) by (intros ->; destruct Hc'; congruence).
      rewrite Hkeep; rewrite lookup_insert_ne by done; done.
Qed.

Lemma assign_loop_range f h ports asg h' ports' :
  assign_loop f h ports asg = Some (h', ports') → wf_heap h →
  (∀ b, b ∈ asg → is_Some (h !! b)) →
  ∀ b, b ∈ asg → (port_of h' b < 65536)%N.
Proof.
  revert h ports. induction asg as [|b asg IH]; intros h ports H Hwf Hin b' Hb'; simpl in H.
  - by apply elem_of_nil in Hb'.
  - destruct (search f ports (start_port h b)) as [c|] eqn:Es; [|done].
    assert (start_port h b < 65536)%N as Hst.
    { unfold start_port, pref_of, deref. case_bool_decide; [lia|].
      destruct (h !! b) as [bb|] eqn:Eb; [apply (Hwf b bb Eb)|]. simpl. lia. }
    pose proof (search_range _ _ _ _ Hst Es) as Hc.
    assert (∀ b, b ∈ asg → is_Some (set_port h b c !! b)) as _ by (intros; unfold set_port; rewrite lookup_alter; apply fmap_is_Some, Hin; by right).
    assert (wf_heap (set_port h b c)) as Hwf'.
    { intros p x. unfold set_port. destruct (decide (b = p)) as [<-|Hne].
      - rewrite lookup_alter. intros (y&Hy&->)%fmap_Some. simpl. split; [done|]. by apply (Hwf b y).
      - rewrite lookup_alter_ne by done. apply Hwf. }
    assert (∀ x, x ∈ asg → is_Some (set_port h b c !! x)) as Hin'.
    { intros x Hx. apply elem_of_dom. unfold set_port. rewrite dom_alter_L. apply elem_of_dom, Hin. by right. }
    destruct (decide (b' ∈ asg)) as [Hb2|Hb2]; [by eapply IH|].
    assert (b' = b) as -> by set_solver.
    destruct (assign_loop_spec _ _ _ _ _ _ H Hin') as (Hframe&_).
    unfold port_of, deref. rewrite Hframe by done. fold (deref (set_port h b c) b).
    fold (port_of (set_port h b c) b). rewrite port_of_set, bool_decide_true; [done|].
    split; [done|]. apply Hin. by left.
Qed.

(** With room, the loop terminates and never assigns port 0. *)
Lemma assign_loop_room h ports asg f :
  (∀ b, b ∈ asg → is_Some (h !! b)) →
  (∀ b, b ∈ asg → (start_port h b + N.of_nat (size ports + length asg) ≤ 65536)%N) →
  size ports + length asg ≤ f →
  ∃ h' ports', assign_loop f h ports asg = Some (h', ports') ∧ ∀ b, b ∈ asg → port_of h' b ≠ 0%N.
Proof.
  revert h ports. induction asg as [|b asg IH]; intros h ports Hin Hroom Hf; simpl.
  - eexists _, _. split; [done|]. intros b Hb. by apply elem_of_nil in Hb.
  - destruct (search_no_wrap f ports (start_port h b)) as (c&Hs&Hc1&Hc2).
    { specialize (Hroom b ltac:(by left)). simpl in Hroom. lia. }
    { simpl in Hf. lia. }
    rewrite Hs. pose proof (search_free _ _ _ _ Hs) as Hfree.
    assert (∀ x, x ∈ asg → is_Some (set_port h b c !! x)) as Hin'.
    { intros x Hx. apply elem_of_dom. unfold set_port. rewrite dom_alter_L. apply elem_of_dom, Hin. by right. }
    destruct (IH (set_port h b c) (<[c:=b]> ports)) as (h'&ports'&Hl&Hnz).
    + done.
    + intros x Hx. rewrite start_port_set, map_size_insert_None by done.
      specialize (Hroom x ltac:(by right)). simpl in Hroom. lia.
    + rewrite map_size_insert_None by done. simpl in Hf. lia.
    + exists h', ports'. split; [done|]. intros x Hx.
      destruct (decide (x ∈ asg)) as [Hx2|Hx2]; [by apply Hnz|].
      assert (x = b) as -> by set_solver.
      destruct (assign_loop_spec _ _ _ _ _ _ Hl Hin') as (Hframe&_).
      unfold port_of, deref. rewrite Hframe by done. fold (deref (set_port h b c) b).
      fold (port_of (set_port h b c) b). rewrite port_of_set, bool_decide_true.
      * assert (0 < start_port h b)%N; [|lia]. unfold start_port. case_bool_decide; lia.
      * split; [done|]. apply Hin. by left.
Qed.

Lemma assign_loop_mono f f' h ports asg r :
  assign_loop f h ports asg = Some r → f ≤ f' → assign_loop f' h ports asg = Some r.
Proof.
  revert h ports. induction asg as [|b asg IH]; intros h ports H Hle; simpl in *; [done|].
  destruct (search f ports (start_port h b)) as [c|] eqn:Es; [|done].
  rewrite (search_mono _ _ _ _ _ Es Hle). by apply IH.
Qed.

(** ** Third loop *)
Lemma pref_of_set_pref h p q v :
  pref_of (set_pref h p v) q = if bool_decide (p = q ∧ is_Some (h !! p)) then v else pref_of h q.
Proof.
  unfold pref_of, deref, set_pref. destruct (decide (p = q)) as [<-|Hne].
  - rewrite lookup_alter. destruct (h !! p) eqn:E; simpl.
    + rewrite bool_decide_true; eauto.
    + rewrite bool_decide_false; [done|]. intros [_ [? ?]]; done.
  - rewrite lookup_alter_ne by done. rewrite bool_decide_false; [done|]. naive_solver.
Qed.
Lemma set_prefs_spec binds h b :
  port_of (set_prefs h binds) b = port_of h b ∧
  pref_of (set_prefs h binds) b =
    (if bool_decide (b ∈ binds ∧ is_Some (h !! b)) then port_of h b else pref_of h b) ∧
  b_key (deref (set_prefs h binds) b) = b_key (deref h b) ∧
  b_addr (deref (set_prefs h binds) b) = b_addr (deref h b) ∧
  b_host (deref (set_prefs h binds) b) = b_host (deref h b) ∧
  (b ∉ binds → set_prefs h binds !! b = h !! b).
Proof.
  revert h. induction binds as [|a binds IH]; intros h; simpl.
  - split_and!; try done; try (rewrite bool_decide_false; [done|]; set_solver).
  - set (h1 := set_pref h a (port_of h a)).
    assert (is_Some (h1 !! b) ↔ is_Some (h !! b)) as Hsome.
    { unfold h1, set_pref. rewrite <- !elem_of_dom. by rewrite dom_alter_L. }
    assert (port_of h1 b = port_of h b ∧ b_key (deref h1 b) = b_key (deref h b) ∧
            b_addr (deref h1 b) = b_addr (deref h b) ∧ b_host (deref h1 b) = b_host (deref h b)) as (P1&P2&P3&P4).
    { unfold port_of, deref, h1, set_pref. destruct (decide (a = b)) as [<-|Hne].
      - rewrite lookup_alter. by destruct (h !! a).
      - by rewrite lookup_alter_ne. }
    destruct (IH h1) as (E1&E2&E3&E4&E5&E6).
    split_and!; try congruence.
    + unfold set_prefs in *. simpl. fold h1. rewrite E2.
      destruct (decide (b ∈ binds ∧ is_Some (h !! b))) as [[Hb Hs]|Hn].
      * rewrite (bool_decide_true (b ∈ binds ∧ is_Some (h1 !! b))) by (split; [done|by apply Hsome]).
        rewrite bool_decide_true by (split; [by right|done]). done.
      * rewrite (bool_decide_false (b ∈ binds ∧ is_Some (h1 !! b))) by naive_solver.
        unfold h1. rewrite pref_of_set_pref.
        destruct (decide (a = b ∧ is_Some (h !! a))) as [[-> Hs]|Hn2].
        -- rewrite !bool_decide_true; [done| |done]. split; [by left|done].
        -- rewrite !bool_decide_false; [done| |done]. rewrite elem_of_cons. naive_solver.
    + intros Hb. unfold set_prefs in *. simpl. fold h1. rewrite E6 by set_solver.
      unfold h1, set_pref. rewrite lookup_alter_ne; [done|set_solver].
Qed.

(** ** AssignPorts as a whole *)
Lemma assign_ports_ok f h binds h' pre asg :
  (∀ b, b ∈ binds → is_Some (h !! b)) →
  assign_ports f h binds = APorts h' pre asg →
  pre = preset h binds ∧ asg = unset h binds ∧
  (∀ b, b ∈ pre → port_of h' b = port_of h b) ∧
  (∀ b c, b ∈ binds → c ∈ binds → b ≠ c → port_of h' b ≠ port_of h' c) ∧
  (∀ b, b ∈ binds → pref_of h' b = port_of h' b) ∧
  (∀ b, b_key (deref h' b) = b_key (deref h b) ∧ b_addr (deref h' b) = b_addr (deref h b) ∧
        b_host (deref h' b) = b_host (deref h b)) ∧
  (∀ b, b ∉ binds → h' !! b = h !! b) ∧
  (wf_heap h → ∀ b, b ∈ binds → (port_of h' b < 65536)%N).
Proof.
  intros Hin. unfold assign_ports. pose proof (collect_spec h binds ∅ [] []) as Hc.
  destruct (collect h binds ∅ [] []) as [[[ports pre0] asg0]|[x y]]; [|done].
  destruct Hc as (->&->&Hnd&_&Hdom&_). simpl.
  destruct (assign_loop f h ports (unset h binds)) as [[h1 ports1]|] eqn:El; [|done].
  intros [= <- <- <-].
  assert (∀ b, b ∈ unset h binds → is_Some (h !! b)) as Hin'.
  { intros b Hb. apply elem_of_list_filter in Hb as [_ Hb]. by apply Hin. }
  destruct (assign_loop_spec _ _ _ _ _ _ El Hin') as (Hframe&Hd&Hpref&Hport&Hkeep).
  assert (∀ b, b ∉ unset h binds → port_of h1 b = port_of h b) as Hsame.
  { intros b Hb. unfold port_of, deref. by rewrite Hframe. }
  assert (∀ b, b ∈ preset h binds → port_of h1 b = port_of h b) as Hpres.
  { intros b Hb. apply Hsame. intros Hb2. apply elem_of_list_filter in Hb, Hb2. naive_solver. }
  assert (∀ b, b ∈ binds → b ∈ preset h binds ∨ b ∈ unset h binds) as Hcase.
  { intros b Hb. unfold preset, unset. rewrite !elem_of_list_filter.
    destruct (decide (port_of h b = 0%N)); [right|left]; done. }
  assert (∀ b, b ∈ preset h binds → is_Some (ports !! port_of h b)) as Hpd.
  { intros b Hb. apply Hdom. right. by apply elem_of_list_fmap_1. }
  assert (∀ (l : list nat) (g : nat → N) b c, NoDup (g <$> l) → b ∈ l → c ∈ l → g b = g c → b = c) as Hinj.
  { intros l g b c Hl Hb Hc2 Heq. induction l as [|a l IHl]; [by apply elem_of_nil in Hb|].
    rewrite fmap_cons in Hl. apply NoDup_cons in Hl as [Hl1 Hl2].
    apply elem_of_cons in Hb as [->|Hb], Hc2 as [->|Hc2]; [done| | |by apply IHl].
    - destruct Hl1. rewrite Heq. by apply elem_of_list_fmap_1.
    - destruct Hl1. rewrite <- Heq. by apply elem_of_list_fmap_1. }
  split_and!; try done.
  - intros b Hb. destruct (set_prefs_spec binds h1 b) as (->&_). by apply Hpres.
  - intros b c Hb Hc Hne. destruct (set_prefs_spec binds h1 b) as (->&_).
    destruct (set_prefs_spec binds h1 c) as (->&_). intros Heq.
    destruct (Hcase b Hb) as [Pb|Ub], (Hcase c Hc) as [Pc|Uc].
    + rewrite (Hpres b), (Hpres c) in Heq by done. apply Hne. eapply Hinj; eauto.
    + destruct (Hport c Uc) as [Hfr _]. rewrite <- Heq, (Hpres b) in Hfr by done.
      destruct (Hpd b Pb); congruence.
    + destruct (Hport b Ub) as [Hfr _]. rewrite Heq, (Hpres c) in Hfr by done.
      destruct (Hpd c Pc); congruence.
    + destruct (Hport b Ub) as [_ H1], (Hport c Uc) as [_ H2]. rewrite Heq in H1. congruence.
  - intros b Hb. destruct (set_prefs_spec binds h1 b) as (->&->&_).
    rewrite bool_decide_true; [done|]. split; [done|]. apply elem_of_dom. rewrite Hd. apply elem_of_dom. by apply Hin.
  - intros b. destruct (set_prefs_spec binds h1 b) as (_&_&E1&E2&E3&_). rewrite E1, E2, E3.
    assert (∀ f h ports asg h' ports' b, assign_loop f h ports asg = Some (h', ports') →
      b_key (deref h' b) = b_key (deref h b) ∧ b_addr (deref h' b) = b_addr (deref h b) ∧
      b_host (deref h' b) = b_host (deref h b)) as Hk; [|by eapply Hk].
    clear. intros f h ports asg. revert h ports. induction asg as [|a asg IH]; intros h ports h' ports' b H; simpl in H.
    + by injection H as <- <-.
    + destruct (search f ports (start_port h a)) as [c|]; [|done].
      destruct (IH _ _ _ _ b H) as (->&->&->). unfold deref, set_port.
      destruct (decide (a = b)) as [<-|Hne].
      * rewrite lookup_alter. by destruct (h !! a).
      * by rewrite lookup_alter_ne.
  - intros b Hb. destruct (set_prefs_spec binds h1 b) as (_&_&_&_&_&E). rewrite E by done. apply Hframe.
    intros Hb2. apply elem_of_list_filter in Hb2 as [_ ?]. done.
  - intros Hwf b Hb. destruct (set_prefs_spec binds h1 b) as (->&_).
    destruct (Hcase b Hb) as [Pb|Ub].
    + rewrite Hpres by done. unfold port_of, deref. destruct (Hin b Hb) as [x Ex]. rewrite Ex. simpl.
      by apply (Hwf b x).
    + by eapply assign_loop_range.
Qed.

Lemma preset_unset_length h binds : length (preset h binds) + length (unset h binds) = length binds.
Proof.
  unfold preset, unset. induction binds as [|b binds IH]; [done|]. rewrite !filter_cons.
  destruct (decide (port_of h b = 0%N)).
  - rewrite decide_False by naive_solver. simpl. lia.
  - rewrite decide_True by naive_solver. simpl. lia.
Qed.

Lemma assign_ports_terminates h binds :
  (∀ b, b ∈ binds → is_Some (h !! b)) →
  NoDup (port_of h <$> preset h binds) →
  (∀ b, b ∈ unset h binds → (start_port h b + N.of_nat (length binds) ≤ 65536)%N) →
  ∃ h' pre asg, (∀ f, length binds ≤ f → assign_ports f h binds = APorts h' pre asg) ∧
    ∀ b, b ∈ binds → port_of h' b ≠ 0%N.
Proof.
  intros Hin Hnd Hroom. unfold assign_ports. pose proof (collect_spec h binds ∅ [] []) as Hc.
  destruct (collect_ok h binds ∅ [] [] Hnd) as [r Hr]; [intros; apply lookup_empty|].
  rewrite Hr in Hc |- *. destruct r as [[ports pre0] asg0]. destruct Hc as (->&->&_&_&Hdom&Hsz). simpl.
  rewrite map_size_empty in Hsz. simpl in Hsz. pose proof (preset_unset_length h binds) as Hlen.
  assert (∀ b, b ∈ unset h binds → is_Some (h !! b)) as Hin'.
  { intros b Hb. apply elem_of_list_filter in Hb as [_ Hb]. by apply Hin. }
  destruct (assign_loop_room h ports (unset h binds) (length binds)) as (h1&ports1&El&Hnz); [done| |lia|].
  { intros b Hb. rewrite Hsz, Hlen. by apply Hroom. }
  exists (set_prefs h1 binds), (preset h binds), (unset h binds). split.
  - intros f Hf. by rewrite (assign_loop_mono _ _ _ _ _ _ El Hf).
  - intros b Hb. destruct (set_prefs_spec binds h1 b) as (->&_).
    destruct (decide (b ∈ unset h binds)) as [Ub|Ub]; [by apply Hnz|].
    destruct (assign_loop_spec _ _ _ _ _ _ El Hin') as (Hframe&_).
    unfold port_of, deref. rewrite Hframe by done. intros E. apply Ub.
    apply elem_of_list_filter. done.
Qed.

Lemma assign_ports_conflict f h binds :
  (¬ NoDup (port_of h <$> preset h binds) ↔ ∃ x y, assign_ports f h binds = AConflict x y) ∧
  (∀ x y, assign_ports f h binds = AConflict x y →
     x ∈ binds ∧ y ∈ binds ∧ port_of h x = port_of h y ∧ port_of h y ≠ 0%N).
Proof.
  unfold assign_ports. pose proof (collect_spec h binds ∅ [] []) as Hc.
  pose proof (collect_ok h binds ∅ [] []) as Hok.
  pose proof (λ x y, collect_conflict h binds ∅ [] [] x y) as Hcf.
  destruct (collect h binds ∅ [] []) as [[[ports pre0] asg0]|[x0 y0]].
  - destruct Hc as (_&_&Hnd&_). destruct (assign_loop f h ports asg0) as [[h1 p1]|].
    + split; [|done]. split; [done|]. by intros (?&?&?).
    + split; [|done]. split; [done|]. by intros (?&?&?).
  - split.
    + split; [eauto|]. intros _ Hnd. destruct (Hok Hnd) as [r Hr]; [intros; apply lookup_empty|]. done.
    + intros x y [= <- <-]. destruct (Hcf x0 y0 eq_refl) as (E1&E2&E3&E4).
      { intros c b. by rewrite lookup_empty. }
      split_and!; try done. destruct E4 as [E4|E4]; [by apply elem_of_nil in E4|done].
Qed.

(** ** Exhaustion *)
Lemma assign_ports_exhausted h binds :
  wf_heap h → (∀ b, b ∈ binds → is_Some (h !! b)) →
  NoDup (port_of h <$> preset h binds) →
  (∀ q, (0 < q < 65536)%N → q ∈ port_of h <$> preset h binds) →
  (∃ a b rest, unset h binds = a :: b :: rest) →
  ∀ f, assign_ports f h binds = ADiverge.
Proof.
  intros Hwf Hin Hnd Hfull (a&b&rest&Hun) f. unfold assign_ports.
  pose proof (collect_spec h binds ∅ [] []) as Hc.
  destruct (collect_ok h binds ∅ [] [] Hnd) as [r Hr]; [intros; apply lookup_empty|].
  rewrite Hr in Hc |- *. destruct r as [[ports pre0] asg0]. destruct Hc as (->&->&_&_&Hdom&_). simpl.
  rewrite Hun. simpl.
  assert (∀ h p, wf_heap h → is_Some (h !! p) → (start_port h p < 65536)%N) as Hst.
  { clear. intros h p Hwf [x Hx]. unfold start_port, pref_of, deref. rewrite Hx. simpl.
    case_bool_decide; [lia|]. by apply (Hwf p x). }
  assert (is_Some (h !! a) ∧ is_Some (h !! b)) as [Ha Hb].
  { split; apply Hin; [assert (a ∈ unset h binds) as H by (rewrite Hun; set_solver)
                     | assert (b ∈ unset h binds) as H by (rewrite Hun; set_solver)];
      by apply elem_of_list_filter in H as [_ ?]. }
  destruct (search f ports (start_port h a)) as [c|] eqn:Es; [|done].
  assert (c = 0)%N as ->.
  { pose proof (search_free _ _ _ _ Es) as Hfr. pose proof (search_range _ _ _ _ (Hst h a Hwf Ha) Es) as Hrg.
    destruct (decide (c = 0)%N) as [|Hne]; [done|].
    assert (is_Some (ports !! c)) as [x Hx] by (apply Hdom; right; apply Hfull; lia). congruence. }
  rewrite search_full; [done| |rewrite start_port_set; by apply Hst].
  intros q Hq. destruct (decide (q = 0)%N) as [->|Hne]; [rewrite lookup_insert; eauto|].
  rewrite lookup_insert_ne by done. apply Hdom. right. apply Hfull. lia.
Qed.

Section full.
  (** [k] is 65537, kept abstract so that no unary numeral of that size is ever computed. *)
  Context (k : nat) (Hk : N.of_nat k = 65537%N).

  Definition full_heap : heap :=
    map_seq 0 ((λ i, Bind "" "" "" (N.of_nat i mod 65536)%N 0%N) <$> seq 0 k).
  Definition full_binds : list nat := seq 0 k.

  Lemma full_lookup i : i < k → full_heap !! i = Some (Bind "" "" "" (N.of_nat i mod 65536)%N 0%N).
  Proof.
    intros Hi. unfold full_heap. rewrite lookup_map_seq_0, list_lookup_fmap, lookup_seq_lt by done. done.
  Qed.
  Lemma full_port i : i < k → port_of full_heap i = (N.of_nat i mod 65536)%N.
  Proof. intros Hi. unfold port_of, deref. rewrite full_lookup by done. done. Qed.

  Lemma full_wf : wf_heap full_heap.
  Proof.
    intros p b. unfold full_heap. rewrite lookup_map_seq_0, list_lookup_fmap.
    intros (i&_&->)%fmap_Some. simpl. lia.
  Qed.
  Lemma full_in b : b ∈ full_binds → is_Some (full_heap !! b).
  Proof. unfold full_binds. rewrite elem_of_seq. intros Hb. rewrite full_lookup by lia. eauto. Qed.

  Lemma full_nodup : NoDup (port_of full_heap <$> preset full_heap full_binds).
  Proof.
    apply NoDup_fmap_2_strong.
    - intros x y [Hx1 Hx2]%elem_of_list_filter [Hy1 Hy2]%elem_of_list_filter.
      unfold full_binds in *. apply elem_of_seq in Hx2, Hy2.
      rewrite full_port in Hx1 by lia. rewrite full_port in Hy1 by lia.
      rewrite !full_port by lia. lia.
    - apply NoDup_filter, NoDup_seq.
  Qed.

  Lemma full_unset m : k = S (m + 1) → unset full_heap full_binds = [0; S m].
  Proof.
    intros Hm. unfold unset, full_binds. rewrite Hm.
    change (seq 0 (S (m + 1))) with (0 :: seq 1 (m + 1)). rewrite seq_app.
    rewrite filter_cons, decide_True by (rewrite full_port by lia; done).
    f_equal. rewrite filter_app.
    assert (∀ l, (∀ i, i ∈ l → 0 < i ∧ i < S m) → filter (λ b, port_of full_heap b = 0%N) l = []) as Hf.
    { induction l as [|x l IH]; intros Hl; [done|]. rewrite filter_cons, decide_False.
      - apply IH. intros i Hi. apply Hl. by right.
      - specialize (Hl x ltac:(by left)). rewrite full_port by lia. lia. }
    rewrite Hf by (intros i Hi; apply elem_of_seq in Hi; lia).
    change (seq (1 + m) 1) with [S m]. simpl.
    rewrite filter_cons, decide_True; [done|]. rewrite full_port by lia. lia.
  Qed.

  Lemma full_exhausted :
    wf_heap full_heap ∧ (∀ b, b ∈ full_binds → is_Some (full_heap !! b)) ∧
    NoDup (port_of full_heap <$> preset full_heap full_binds) ∧
    ∀ f, assign_ports f full_heap full_binds = ADiverge.
  Proof.
    split; [apply full_wf|]. split; [apply full_in|]. split; [apply full_nodup|].
    apply assign_ports_exhausted; [apply full_wf|apply full_in|apply full_nodup| |].
    - intros q Hq. apply elem_of_list_fmap. exists (N.to_nat q).
      rewrite full_port by lia. split; [lia|]. apply elem_of_list_filter. rewrite full_port by lia.
      split; [lia|]. unfold full_binds. apply elem_of_seq. lia.
    - exists 0, (S (k - 2)), []. apply full_unset. lia.
  Qed.
End full.

Lemma full_exhausted_ex :
  ∃ h binds, wf_heap h ∧ (∀ b, b ∈ binds → is_Some (h !! b)) ∧
    NoDup (port_of h <$> preset h binds) ∧ ∀ f, assign_ports f h binds = ADiverge.
Proof.
  assert (∃ k, N.of_nat k = 65537%N) as [k Hk] by (exists (N.to_nat 65537); apply N2Nat.id).
  exists (full_heap k), (full_binds k). by apply full_exhausted.
Qed.
