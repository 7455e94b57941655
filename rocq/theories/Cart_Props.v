(** * C74, C75: the SockShop cart service *)
From Verif Require Import Cart_Proof.
From stdpp Require Import strings gmap numbers.
From stdpp Require Import list.
Open Scope list_scope.

Definition sock (q : Z) : item := Item "sock" q 10.
Definition hat (q : Z) : item := Item "hat" q 20.

(** ** C74: one call after the other *)

(** Every answer is that of a shop that keeps one basket per customer: AddItem adds to the quantity (and keeps the
    price of what is there), UpdateItem sets it or removes the item, MergeCarts moves a session's basket, adding
    up the quantities. *)
Theorem C74_sequential cs :
  all_orderly cs [] → explains cs (λ _, ∅) (run_calls cs []).2.
Proof.
  intros H. eapply explains_ext; [|apply explains_run; [apply good_nil|done]]. done.
Qed.
(** So do the carts that are left. *)
Theorem C74_final cs c :
  all_orderly cs [] → contents (shown (run_calls cs []).1 c) = foldl (λ σ a, spec_step a σ) (λ _, ∅) cs c.
Proof.
  rewrite shown_items. revert c.
  assert (∀ l σ, good l → (∀ c, view l c = σ c) → all_orderly cs l →
            ∀ c, view (run_calls cs l).1 c = foldl (λ σ a, spec_step a σ) σ cs c) as H.
  { induction cs as [|a cs IH]; intros l σ Hg Hσ; simpl; [done|]. intros [Ho Hos].
    pose proof (good_run a l Hg) as Hg1. pose proof (λ c, proj1 (run_after a l c (proj1 Hg))) as Ha.
    destruct (run (prog_of a) l) as [l1 r]. simpl in *.
    specialize (IH l1 (spec_step a σ) Hg1).
    destruct (run_calls cs l1) as [l2 rs] eqn:E. simpl in *. apply IH; [|done]. intros c.
    unfold view. rewrite Ha, after_spec by done. by apply spec_step_ext. }
  intros c Ho. apply (H [] (λ _, ∅)); [apply good_nil|done|done].
Qed.
Example C74_sequential_ex :
  let cs := [AddItem "alice" (sock 1); AddItem "s1" (sock 2); AddItem "s1" (hat 1); MergeCarts "alice" "s1";
             UpdateItem "alice" (hat 0); GetCart "alice"; GetCart "s1"] in
  all_orderly cs [] ∧ (run_calls cs []).2 =
    [RItem (sock 1); RItem (sock 2); RItem (hat 1); ROk; ROk; RItems [sock 3]; RItems []].
Proof.
  split; [|by vm_compute].
  assert (∀ l s c, shown l s = [sock 2; hat 1] → shown l c = [sock 1] →
            ∀ pre x mid y post, shown l s = pre ++ x :: mid ++ y :: post → it_id y ∈ ids (shown l c) → it_id x ∈ ids (shown l c)) as H.
  { intros l s c -> ->. intros [|x0 pre] x mid y post E Hy; simplify_eq; [vm_compute; set_solver|].
    destruct pre as [|? [|]], mid; simplify_eq. }
  cbn [all_orderly orderly]. split_and!; try done. apply H; by vm_compute.
Qed.
Print Assumptions C74_sequential.
Print Assumptions C74_final.

(** What MergeCarts does in general.  An item that both carts have gets the sum of the quantities and the session's
    price only if everything before it in the session's cart is also in the customer's; otherwise it stays as it
    is. *)
Theorem C74_merge_exactly y c s :
  reachable y → c ≠ s →
  let l := sy_db y in let l' := (run (prog_of (MergeCarts c s)) l).1 in
  (run (prog_of (MergeCarts c s)) l).2 = ROk ∧
  shown l' s = [] ∧
  (∀ c', c' ≠ c → c' ≠ s → shown l' c' = shown l c') ∧
  NoDup (ids (shown l' c)) ∧
  (∀ i, i ∉ ids (shown l s) → contents (shown l' c) !! i = contents (shown l c) !! i) ∧
  (∀ i, i ∉ ids (shown l c) → contents (shown l' c) !! i = contents (shown l s) !! i) ∧
  (∀ pre x post q p, shown l s = pre ++ x :: post → contents (shown l c) !! it_id x = Some (q, p) →
     contents (shown l' c) !! it_id x =
     if decide (Forall (λ z, it_id z ∈ ids (shown l c)) pre) then Some (q + it_qty x, it_price x)%Z else Some (q, p)).
Proof.
  intros Hy Hne l l'. pose proof (reachable_good y Hy) as Hg. fold l in Hg.
  pose proof (λ c', run_after (MergeCarts c s) l c' (proj1 Hg)) as Ha. cbn [answers] in Ha.
  assert (shown l' c = merge_loop (shown l s) (shown l c) None) as Ec.
  { rewrite !shown_items. unfold l'. rewrite (proj1 (Ha c)). unfold after. by rewrite decide_False, decide_True by done. }
  assert (NoDup (ids (shown l s))) as Hs by (rewrite shown_items; by apply good_items).
  assert (NoDup (ids (shown l c))) as Hc by (rewrite shown_items; by apply good_items).
  split_and!.
  - by destruct (Ha c).
  - rewrite shown_items. unfold l'. rewrite (proj1 (Ha s)). unfold after. by rewrite decide_True.
  - intros c' H1 H2. rewrite !shown_items. unfold l'. rewrite (proj1 (Ha c')). unfold after. by rewrite !decide_False.
  - rewrite Ec. by apply merge_nodup.
  - intros i Hi%find_item_None. rewrite Ec, !contents_lookup, merge_find, Hi by done. by destruct (find_item i (shown l c)).
  - intros i Hi%find_item_None. rewrite Ec, !contents_lookup, merge_find, Hi by done. done.
  - intros pre x post q p Es Hx. rewrite Ec. rewrite contents_lookup in *. rewrite merge_find by done.
    destruct (find_item (it_id x) (shown l c)) as [z|] eqn:Ez; [|done]. simpl in Hx. injection Hx as Hq Hp.
    assert (find_item (it_id x) (shown l s) = Some x) as Ex.
    { apply elem_find_item; [done|]. rewrite Es. set_solver. }
    rewrite Ex. simpl.
    assert (it_id x ∈ ids (shown l c)) as Hin by (apply find_item_Some; eauto).
    assert (x ∉ pre) as Hnp.
    { rewrite Es in Hs. unfold ids in Hs. rewrite fmap_app in Hs. apply NoDup_app in Hs as (_&Hs&_). intros Hxp.
      apply (Hs (it_id x)); [by apply elem_of_list_fmap_1|]. simpl. set_solver. }
    destruct (decide _) as [Hpre|Hpre].
    + assert (is_Some (find_item (it_id x) (early (shown l s) (shown l c)))) as [w ->].
      { apply find_item_Some. rewrite Es. clear -Hpre Hin. induction Hpre as [|u pre Hu _ IH]; simpl.
        - rewrite decide_True by done. unfold ids. simpl. set_solver.
        - rewrite decide_True by done. unfold ids in *. simpl. set_solver. }
      simpl. by rewrite Hq.
    + destruct (find_item (it_id x) (early (shown l s) (shown l c))) as [w|] eqn:Ew; [|simpl; congruence].
      exfalso. apply Hpre. assert (w = x) as ->.
      { apply find_early in Ew; [|done]. congruence. }
      apply find_item_elem in Ew as [Ew _]. rewrite Es in Ew. clear -Ew Hnp.
      induction pre as [|u pre IH]; [done|]. simpl in Ew. destruct (decide _); [|set_solver].
      constructor; [done|]. apply IH; set_solver.
Qed.
(** With its own cart as the session's, a customer loses everything. *)
Theorem C74_merge_with_itself y c :
  reachable y → shown (run (prog_of (MergeCarts c c)) (sy_db y)).1 c = [].
Proof.
  intros Hy. pose proof (reachable_good y Hy) as Hg. rewrite shown_items, (proj1 (run_after _ _ c (proj1 Hg))).
  unfold after. by rewrite decide_True.
Qed.
(** The plain claim about MergeCarts, that quantities always add up, is false. *)
Theorem C74_merge_refuted :
  ∃ cs c s i, c ≠ s ∧
    let l := (run_calls cs []).1 in let l' := (run (prog_of (MergeCarts c s)) l).1 in
    contents (shown l c) !! i = Some (1%Z, 10%N) ∧ contents (shown l s) !! i = Some (2%Z, 10%N) ∧
    shown l' s = [] ∧ contents (shown l' c) !! i = Some (1%Z, 10%N).
Proof.
  exists [AddItem "alice" (sock 1); AddItem "s1" (hat 1); AddItem "s1" (sock 2)], "alice", "s1", "sock".
  split; [done|]. by vm_compute.
Qed.
(** AddItem does not update the price. *)
Theorem C74_price_refuted :
  ∃ cs c i p, (run_calls cs []).2 !! 1 = Some (RItem (Item i 2 p)) ∧ cs !! 1 = Some (AddItem c (Item i 1 11)) ∧ p = 10%N.
Proof.
  exists [AddItem "alice" (sock 1); AddItem "alice" (Item "sock" 1 11)], "alice", "sock", 10%N. by vm_compute.
Qed.
Example C74_merge_ex :
  ∃ y, reachable y ∧ shown (sy_db y) "alice" = [sock 1; hat 5] ∧ shown (sy_db y) "s1" = [sock 2; Item "tie" 1 5; hat 1] ∧
    shown (run (prog_of (MergeCarts "alice" "s1")) (sy_db y)).1 "alice" = [sock 3; hat 5; Item "tie" 1 5].
Proof.
  eexists. split; [eexists (mjoin ((λ '(t, a), [Start a; Step t Fine; Step t Fine]) <$>
    [(0, AddItem "alice" (sock 1)); (1, AddItem "alice" (hat 5)); (2, AddItem "s1" (sock 2));
     (3, AddItem "s1" (Item "tie" 1 5)); (4, AddItem "s1" (hat 1))])); by vm_compute|].
  by vm_compute.
Qed.
Print Assumptions C74_merge_exactly.
Print Assumptions C74_merge_with_itself.
Print Assumptions C74_merge_refuted.
Print Assumptions C74_price_refuted.

(** ** C75: calls at the same time, failures and crashes *)

(** Whatever the interleaving, and whatever fails where: a customer has at most one cart, every cart stored has
    items, an item is listed once, and quantities are positive if only positive quantities were added. *)
Theorem C75_well_formed es y :
  sys_run es init = Some y →
  NoDup (ct_id <$> sy_db y) ∧
  (∀ d, d ∈ sy_db y → ct_items d ≠ [] ∧ NoDup (ids (ct_items d))) ∧
  (∀ t c l, sy_calls y !! t = Some (GetCart c, Ret (RItems l)) → NoDup (ids l)) ∧
  ((∀ c i, Start (AddItem c i) ∈ es → (0 < it_qty i)%Z) →
     (∀ d, d ∈ sy_db y → Forall (λ x, (0 < it_qty x)%Z) (ct_items d)) ∧
     ∀ t c l, sy_calls y !! t = Some (GetCart c, Ret (RItems l)) → Forall (λ x, (0 < it_qty x)%Z) l).
Proof.
  intros Hr.
  assert (∀ P, closed P → Forall (fine_event P) es →
            inv P y ∧ inv_told P y) as H.
  { intros P HP Hf. split; [by eapply inv_run, Hr; [..|apply inv_init]|]. eapply told_run, Hr; [done|done|apply inv_init|done]. }
  assert (∀ P, inv P y → ∀ d, d ∈ sy_db y → fine P d) as Hd.
  { intros P (U1&U2&_) d Hin. apply (U2 (ct_id d)). clear -U1 Hin. unfold uniq in U1.
    induction (sy_db y) as [|x l IH]; [set_solver|]. simpl in *. apply NoDup_cons in U1 as [Hn Hu].
    apply elem_of_cons in Hin as [->|Hin]; [by rewrite String.eqb_refl|].
    destruct (String.eqb_spec (ct_id x) (ct_id d)) as [E|]; [|by apply IH].
    exfalso. apply Hn. rewrite E. by apply elem_of_list_fmap_1. }
  destruct (H any any_closed (any_events es)) as [Hi Ht]. split_and!.
  - apply Hi.
  - intros d Hin. destruct (Hd _ Hi d Hin) as (?&?&_). done.
  - intros t c l Hc. by destruct (Ht _ _ _ Hc).
  - intros Hpos. destruct (H (λ x, 0 < it_qty x)%Z) as [Hi' Ht'].
    + intros x z. unfold bump, plus_qty, set_price. simpl. lia.
    + apply Forall_forall. intros [a|] He; [|done]. destruct a; simpl; try done. by eapply Hpos.
    + split.
      * intros d Hin. by destruct (Hd _ Hi' d Hin) as (_&_&?).
      * intros t c l Hc. by destruct (Ht' _ _ _ Hc).
Qed.
Print Assumptions C75_well_formed.

(** Calls about different customers do not disturb each other: if no call starts while another one about the
    same cart is running, then all answers, and the carts nobody is working on, are as if the calls had come
    one after the other. *)
Theorem C75_isolated es y :
  no_overlaps es init → sys_run es init = Some y →
  let '(l, rs) := run_calls (sy_calls y).*1 [] in
  (∀ t a r, sy_calls y !! t = Some (a, Ret r) → rs !! t = Some r) ∧
  ∀ c, (∀ t a p, sy_calls y !! t = Some (a, p) → c ∈ customers a → running p = false) →
       shown (sy_db y) c = shown l c.
Proof.
  intros Hno Hr. pose proof (serial_run es init y (inv_init any) serial_init Hno Hr) as (H1&_&H3&_).
  destruct (run_calls (sy_calls y).*1 []) as [l rs]. simpl in *. split.
  - intros t a r Ht. by rewrite (H1 _ _ _ Ht).
  - intros c Hc. rewrite !shown_items. unfold items. rewrite H3; [done|]. intros (t&a&p&Ht&Hp&Hin).
    by rewrite (Hc _ _ _ Ht Hin) in Hp.
Qed.
Print Assumptions C75_isolated.
Example C75_isolated_ex :
  let es := [Start (AddItem "alice" (sock 1)); Start (AddItem "bob" (hat 1)); Step 1 Fine; Step 0 Fine; Step 0 Fine;
             Start (GetCart "alice"); Step 1 Fine; Step 2 Fine] in
  no_overlaps es init ∧
  ∃ y, sys_run es init = Some y ∧ sy_calls y !! 2 = Some (GetCart "alice", Ret (RItems [sock 1])).
Proof.
  split; [|eexists; split; [by vm_compute|done]].
  assert (∀ (x z : string), x ≠ z → [x] ## [z]) as Hd by set_solver.
  cbn [no_overlaps no_overlap]. repeat (split; [|intros ? [= <-]]); try done.
  - intros [|t] b p; simpl; [|done]. intros [= <- <-] _. by apply Hd.
  - intros [|[|t]] b p; simpl; [by intros [= <- <-]| |done]. intros [= <- <-] _. by apply Hd.
Qed.
(** Two calls about the same cart may lose one of them. *)
Theorem C75_lost_update_refuted :
  ∃ es y, sys_run es init = Some y ∧ (∀ t f, Step t f ∈ es → f = Fine) ∧
    sy_calls y = [(AddItem "alice" (sock 1), Ret (RItem (sock 1))); (AddItem "alice" (hat 1), Ret (RItem (hat 1)))] ∧
    shown (sy_db y) "alice" = [hat 1].
Proof.
  exists [Start (AddItem "alice" (sock 1)); Start (AddItem "alice" (hat 1)); Step 0 Fine; Step 1 Fine; Step 0 Fine; Step 1 Fine].
  eexists. split; [by vm_compute|]. split; [set_solver|]. done.
Qed.
Print Assumptions C75_lost_update_refuted.

(** A call that fails or is interrupted anywhere did all or nothing, and one that reports no error did
    everything; MergeCarts can also stop when the customer has the items and the session's cart is still there. *)
Theorem C75_all_or_nothing l a fs :
  (∀ c s, a ≠ MergeCarts c s) →
  let '(l', r) := run_f (prog_of a) fs l in
  (l' = l ∨ l' = (run (prog_of a) l).1) ∧
  ∀ rep, r = Some rep → rep ≠ RErr → l' = (run (prog_of a) l).1 ∧ rep = (run (prog_of a) l).2.
Proof.
  intros Ha. pose proof (atomic_call a fs l Ha) as [H1 H2]. destruct (run_f (prog_of a) fs l) as [l' r]. simpl in *.
  split; [done|]. intros rep Hr Hne. specialize (H2 rep Hr Hne). rewrite Hr in H2. by simplify_eq.
Qed.
Theorem C75_merge_failures y c s fs :
  reachable y → c ≠ s →
  let l := sy_db y in let lm := (run (prog_of (MergeCarts c s)) l).1 in
  let '(l', r) := run_f (prog_of (MergeCarts c s)) fs l in
  (l' = l ∨ l' = lm ∨ (shown l' c = shown lm c ∧ ∀ c', c' ≠ c → shown l' c' = shown l c')) ∧
  ∀ rep, r = Some rep → rep ≠ RErr → l' = lm ∧ rep = ROk.
Proof.
  intros Hy Hne l lm. pose proof (reachable_good y Hy) as Hg. fold l in Hg.
  pose proof (λ c', run_after (MergeCarts c s) l c' (proj1 Hg)) as Ha.
  pose proof (merge_failures c s fs l) as H. cbv zeta in H. fold lm in H.
  destruct (run_f (prog_of (MergeCarts c s)) fs l) as [l' r]. cbn [fst snd] in H. destruct H as [H1 H2]. split.
  - destruct H1 as [H1|[[H1 H1']|H1]]; [by left| |by right; left]. right; right.
    split.
    + rewrite !shown_items. unfold lm. rewrite (proj1 (Ha c)). rewrite H1', items_upsert by apply Hg. unfold after.
      by rewrite !decide_True, (decide_False (P := c = s)) by done.
    + intros c' Hc'. rewrite !shown_items, H1', items_upsert by apply Hg. by rewrite decide_False.
  - intros rep Hr Hne'. specialize (H2 rep Hr Hne'). rewrite Hr in H2. destruct (Ha c) as [_ E]. cbn [answers] in E.
    rewrite E in H2. injection H2 as H2 H3. done.
Qed.
(** After a failure, DeleteCart, RemoveItem and UpdateItem can be retried. *)
Theorem C75_retry_safe y a fs c :
  reachable y →
  match a with DeleteCart _ | RemoveItem _ _ | UpdateItem _ _ => True | _ => False end →
  let l := sy_db y in
  contents (shown (run (prog_of a) (run_f (prog_of a) fs l).1).1 c) = contents (shown (run (prog_of a) l).1 c).
Proof.
  intros Hy Ha l. pose proof (reachable_good y Hy) as Hg. fold l in Hg.
  assert (∀ c s, a ≠ MergeCarts c s) as Hm by by destruct a.
  pose proof (atomic_call a fs l Hm) as [[-> | ->] _]; [done|].
  assert (∀ l, orderly l a) as Ho by by destruct a.
  pose proof (good_run a l Hg) as Hg1.
  rewrite !shown_items, !(proj1 (run_after _ _ c (proj1 Hg1))), !(proj1 (run_after _ _ c (proj1 Hg))).
  rewrite !after_spec by done.
  assert (∀ c', view (run (prog_of a) l).1 c' = spec_step a (view l) c') as Hv.
  { intros c'. unfold view at 1. by rewrite (proj1 (run_after _ _ c' (proj1 Hg))), after_spec. }
  rewrite (spec_step_ext a _ _ Hv).
  destruct a as [c0|c0| | | |c0 i|c0 i]; try done; simpl; unfold upd; destruct (decide (c = c0)) as [->|]; try done.
  - rewrite decide_True by done. apply delete_idemp.
  - rewrite !(decide_True (P := c0 = c0)) by done. destruct (decide _); [apply delete_idemp|apply insert_insert].
Qed.
(** AddItem and MergeCarts cannot. *)
Theorem C75_retry_refuted :
  (∃ fs, let '(l, r) := run_f (prog_of (AddItem "alice" (sock 1))) fs [] in
         r = Some RErr ∧ shown (run (prog_of (AddItem "alice" (sock 1))) l).1 "alice" = [sock 2]) ∧
  ∃ l0 fs, let '(l, r) := run_f (prog_of (MergeCarts "alice" "s1")) fs l0 in
         r = Some RErr ∧ shown l0 "alice" = [] ∧ shown l0 "s1" = [sock 1] ∧
         shown (run (prog_of (MergeCarts "alice" "s1")) l).1 "alice" = [sock 2].
Proof.
  split; [by exists [Fine; AnswerLost]|]. exists [Cart "s1" [sock 1]], [Fine; Fine; Fine; Refused]. by vm_compute.
Qed.
Example C75_failures_ex :
  ∃ y, reachable y ∧ shown (sy_db y) "alice" = [sock 1; hat 1] ∧
    shown (run_f (prog_of (UpdateItem "alice" (sock 0))) [Fine; AnswerLost] (sy_db y)).1 "alice" = [hat 1] ∧
    (run_f (prog_of (UpdateItem "alice" (sock 0))) [Fine; AnswerLost] (sy_db y)).2 = Some RErr ∧
    shown (run_f (prog_of (MergeCarts "bob" "alice")) [Fine; Fine; Fine] (sy_db y)).1 "bob" = [sock 1; hat 1].
Proof.
  eexists. split; [eexists (mjoin ((λ '(t, a), [Start a; Step t Fine; Step t Fine]) <$>
    [(0, AddItem "alice" (sock 1)); (1, AddItem "alice" (hat 1))])); by vm_compute|].
  by vm_compute.
Qed.
Print Assumptions C75_all_or_nothing.
Print Assumptions C75_merge_failures.
Print Assumptions C75_retry_safe.
Print Assumptions C75_retry_refuted.
