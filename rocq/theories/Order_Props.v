(** * C76, C77: SockShop's orders and shipments *)
From Verif Require Import Order_Proof.
From stdpp Require Import list.
Open Scope list_scope.

(** Some environment for examples: integer prices, a limit of 1000000, all ids well-formed. *)
Definition E0 : env := {| e_hex := λ _, true; e_add := N.add; e_mul := N.mul; e_int := Z.to_N;
  e_zero_or_less := N.eqb 0; e_le := N.leb; e_limit := 2000000000; e_modified := false |}.
Definition E1 : env := {| e_hex := λ _, true; e_add := N.add; e_mul := N.mul; e_int := Z.to_N;
  e_zero_or_less := N.eqb 0; e_le := N.leb; e_limit := 2000000000; e_modified := true |}.
Definition sock : item := Item "sock" 1 10.
Definition hat : item := Item "hat" 1 20.
Definition g0 : args := Args "alice" "home" "visa" "alice".
Definition fetches (t : nat) : list event := [Fetch t 2 Fine; Fetch t 0 Fine; Fetch t 3 Fine; Fetch t 1 Fine].

(** ** C76: placing orders *)

(** Every order in the database was asked for by one NewOrder call with all arguments given, has what was in the
    cart named in the call at some moment during the call, has its total authorised, and its shipment is recorded
    under the same id; no two orders have the same id. *)
Theorem C76_orders E n es w :
  reaches E n es w →
  NoDup (od_id <$> w_orders w) ∧
  ∀ o, o ∈ w_orders w → proper_order E n es w o ∧
    ∃ x, x ∈ w_shipments w ∧ sh_id x = od_id o ∧ sh_name x = od_customer o.
Proof.
  intros Hr. pose proof (stores_reach E n es w Hr) as [H1 H2 H3 H4 H5 H6 H7]. split; [done|]. intros o Ho.
  destruct (H1 o Ho) as (_&(x&Hx&Hi)&g&Hg&(l&a&c&Eo&((A1&A2&A3&A4)&B&C1&C2&C3)&D)). split.
  - exists g. rewrite Eo in *. simpl in *. split_and!; done.
  - exists x. split_and!; [done|done|]. destruct (H3 x Hx) as (_&(g'&Hg'&Hn)&_). rewrite Hi in Hg'.
    unfold asked in *. rewrite Hg in Hg'. injection Hg' as <-. by rewrite Hn, Eo.
Qed.
(** What a call answers is in the database, under the number of the call; a call without answer from anybody
    lost that failed left no order. *)
Theorem C76_answers E n es w t g :
  reaches E n es w →
  (∀ o b, w_calls w !! t = Some (g, Done (Placed o b)) → o ∈ w_orders w ∧ od_id o = t ∧ od_customer o = ar_customer g) ∧
  (w_calls w !! t = Some (g, Done Failed) → Forall (λ e, ¬ is_answer_lost e) es → ∀ o, o ∈ w_orders w → od_id o ≠ t).
Proof.
  intros Hr. split.
  - intros o b Ht. destruct (stages_reach E n es w Hr _ _ _ Ht) as (l&a&c&->&_). split_and!; [|done|done].
    by apply (st_stages _ _ _ _ (stores_reach E n es w Hr) _ _ _ Ht).
  - intros Ht Hf o Ho Hi.
    assert (answered w) as H.
    { clear Ht Ho. revert es w Hr Hf. apply (reaches_ind E n (λ es w, Forall _ es → answered w)).
      - intros _ o'. simpl. set_solver.
      - intros es e w w' Hr IH Hs Hf. apply Forall_app in Hf as [Hf He]. apply Forall_cons in He as [He _].
        eapply answered_step; [done|by apply IH|done]. }
    destruct (H o Ho) as (g'&s&Hc&Hs). rewrite Hi, Ht in Hc. simplify_eq. by destruct Hs as [|[? ?]].
Qed.
(** A NewOrder call on its own, with all arguments, well-formed ids, something in the cart and a total that is
    authorised, places the order, queues and records the shipment, and deletes the customer's cart. *)
Theorem C76_alone E w g :
  ar_customer g ≠ "" → ar_address g ≠ "" → ar_card g ≠ "" → ar_cart g ≠ "" →
  e_hex E (ar_customer g) = true → e_hex E (ar_address g) = true → e_hex E (ar_card g) = true →
  cart_of w (ar_cart g) ≠ [] → authorise E (total_price E (cart_of w (ar_cart g))) = Some true →
  let t := length (w_calls w) in
  let x := Shipment t (ar_customer g) "awaiting shipment" in
  let o := Order t (ar_customer g) (default 0%N (w_addresses w !! ar_address g)) (default 0%N (w_cards w !! ar_card g))
             (cart_of w (ar_cart g)) x (total_price E (cart_of w (ar_cart g))) in
  run_world E (Start g :: fetches t ++ replicate 5 (Step t Fine)) w =
  Some (World (delete (ar_customer g) (w_carts w)) (w_users w) (w_addresses w) (w_cards w) (w_queue w ++ [x])
          (w_shipments w ++ [x]) (w_orders w ++ [o]) (w_masters w) (w_calls w ++ [(g, Done (Placed o false))])).
Proof.
  intros A1 A2 A3 A4 B1 B2 B3 C D t x o. simpl.
  assert (∀ s, (w_calls w ++ [(g, s)]) !! t = Some (g, s)) as Hl.
  { intros s. by rewrite list_lookup_middle. }
  assert (∀ s s', <[t := (g, s')]> (w_calls w ++ [(g, s)]) = w_calls w ++ [(g, s')]) as Hi.
  { intros s s'. unfold t. by rewrite <-(Nat.add_0_r (length (w_calls w))), insert_app_r. }
  assert (begin g = Fetching None None None None) as ->.
  { unfold begin. rewrite bool_decide_false; [done|]. naive_solver. }
  rewrite Hl. simpl. unfold put, set_calls; simpl. rewrite Hi, Hl. simpl. rewrite Hi, Hl. simpl. rewrite Hi, Hl. simpl.
  unfold cart_of in *. simpl. unfold look. rewrite B1, B2, B3.
  destruct (default [] (w_carts w !! ar_cart g)) as [|y r] eqn:Ec; [done|].
  unfold set_calls. simpl. rewrite Hi, Hl. simpl. unfold put, set_calls. simpl.
  assert (authorised E (total_price E (y :: r)) = true) as -> by by apply authorised_iff.
  rewrite Hi, Hl. simpl. unfold put, set_calls. simpl. rewrite Hi, Hl. simpl. unfold put, set_calls. simpl.
  rewrite Hi, Hl. simpl. unfold put, set_calls. simpl. rewrite Hi, Hl. simpl. unfold put, set_calls. simpl. rewrite Hi. done.
Qed.
(** A step of a NewOrder call changes no cart but, when the order is stored, that of the customer. *)
Theorem C76_other_carts E n es w w' t f g s c :
  reaches E n es w → w_calls w !! t = Some (g, s) → step E (Step t f) w = Some w' →
  w_carts w' !! c ≠ w_carts w !! c → c = ar_customer g ∧ ∃ o, o ∈ w_orders w ∧ od_id o = t.
Proof.
  intros Hr Ht Hs Hc. pose proof (st_stages _ _ _ _ (stores_reach E n es w Hr) _ _ _ Ht) as Hst.
  pose proof (stages_reach E n es w Hr _ _ _ Ht) as Hok. simpl in Hs. rewrite Ht in Hs.
  destruct s as [i u a cc|l a cc|l a cc|l a cc|l a cc|o|r]; simpl in Hs; [done| | | | | |done]; injection Hs as <-;
    destruct f; simpl in Hc; try done.
  - destruct (decide (c = ar_customer g)) as [->|Hne]; [|by rewrite lookup_delete_ne in Hc].
    split; [done|]. exists o. split; [done|]. by destruct Hok as (?&?&?&->&_).
  - destruct (decide (c = ar_customer g)) as [->|Hne]; [|by rewrite lookup_delete_ne in Hc].
    split; [done|]. exists o. split; [done|]. by destruct Hok as (?&?&?&->&_).
Qed.
Example C76_ex :
  ∃ w, reaches E0 1 (Cart "alice" [sock; hat] :: Accounts {["alice" := 7%N]} {["home" := 8%N]} {["visa" := 9%N]} ::
                     Start g0 :: fetches 0 ++ replicate 5 (Step 0 Fine)) w ∧
    w_orders w = [Order 0 "alice" 8 9 [sock; hat] (Shipment 0 "alice" "awaiting shipment") 1084206642] ∧
    w_carts w !! "alice" = None.
Proof. eexists. split; [by vm_compute|]. by vm_compute. Qed.

(** The items of a cart, in order, cost the sum of quantity times unit price, in the service's arithmetic. *)
Inductive costs (E : env) : list item → N → Prop :=
  | costs_none : costs E [] 0%N
  | costs_more l s x : costs E l s → costs E (l ++ [x]) (e_add E s (e_mul E (e_int E (it_qty x)) (it_price x))).
(** The total of every order is what its items cost plus 4.99 for shipping (as a float32); it is positive and at
    most the limit. *)
Theorem C76_total E n es w o :
  reaches E n es w → o ∈ w_orders w →
  (∃ s, costs E (od_items o) s ∧ od_total o = e_add E s 1084206612) ∧
  e_zero_or_less E (od_total o) = false ∧ e_le E (od_total o) (e_limit E) = true.
Proof.
  intros Hr Ho. destruct (C76_orders E n es w Hr) as [_ H]. destruct (H o Ho) as ((g&?&?&?&?&?&?&?&?&?&?&Ht&Ha&_)&_).
  split.
  - rewrite Ht. unfold total_price. eexists. split; [|done]. clear.
    induction (od_items o) as [|x l IH] using rev_ind; [apply costs_none|].
    rewrite foldl_app. simpl. by apply costs_more.
  - unfold authorise in Ha. destruct (e_zero_or_less E (od_total o)); [done|]. by destruct (e_le E (od_total o) (e_limit E)).
Qed.
Example C76_total_ex : costs E0 [Item "sock" 3 10; hat] 50 ∧
  ∃ w o, reaches E0 1 (Cart "alice" [Item "sock" 3 10; hat] :: Start g0 :: fetches 0 ++ replicate 5 (Step 0 Fine)) w ∧
    w_orders w = [o] ∧ od_total o = 1084206662%N.
Proof.
  split; [|eexists _, _; split; by vm_compute].
  apply (costs_more E0 [Item "sock" 3 10] 30 hat). apply (costs_more E0 [] 0 (Item "sock" 3 10)). apply costs_none.
Qed.

(** An order is placed although neither the customer nor the address nor the card exists. *)
Theorem C76_unknown_refuted :
  ∃ w o, reaches E0 1 (Cart "alice" [sock] :: Start g0 :: fetches 0 ++ replicate 5 (Step 0 Fine)) w ∧
    w_users w = ∅ ∧ w_addresses w = ∅ ∧ w_cards w = ∅ ∧ w_calls w = [(g0, Done (Placed o false))] ∧ od_address o = 0%N.
Proof. eexists _, _. split; [by vm_compute|]. by vm_compute. Qed.
(** The cart an order was made from is not the one deleted: with another cart id, it can be ordered again, and the
    customer's own cart is gone. *)
Theorem C76_cart_refuted :
  ∃ w o1 o2, let g := Args "alice" "home" "visa" "s1" in
    reaches E0 1 (Cart "alice" [hat] :: Cart "s1" [sock] :: Start g :: fetches 0 ++ replicate 5 (Step 0 Fine) ++
                  Start g :: fetches 1 ++ replicate 5 (Step 1 Fine)) w ∧
    w_orders w = [o1; o2] ∧ od_items o1 = [sock] ∧ od_items o2 = [sock] ∧
    w_carts w !! "s1" = Some [sock] ∧ w_carts w !! "alice" = None.
Proof. eexists _, _, _. split; [by vm_compute|]. by vm_compute. Qed.
(** What a customer puts into the cart while the order is being placed is lost. *)
Theorem C76_meanwhile_refuted :
  ∃ w o, reaches E0 1 (Cart "alice" [sock] :: Start g0 :: fetches 0 ++ [Step 0 Fine; Cart "alice" [sock; hat]] ++
                       replicate 4 (Step 0 Fine)) w ∧
    w_orders w = [o] ∧ od_items o = [sock] ∧ w_carts w !! "alice" = None.
Proof. eexists _, _. split; [by vm_compute|]. by vm_compute. Qed.
(** A call that reports an error may have placed an order, and a retry then places another one. *)
Theorem C76_retry_refuted :
  ∃ w o1 o2, reaches E0 1 (Cart "alice" [sock] :: Start g0 :: fetches 0 ++ replicate 3 (Step 0 Fine) ++ [Step 0 AnswerLost] ++
                       Start g0 :: fetches 1 ++ replicate 5 (Step 1 Fine)) w ∧
    w_calls w = [(g0, Done Failed); (g0, Done (Placed o2 false))] ∧ w_orders w = [o1; o2] ∧ od_items o1 = od_items o2.
Proof. eexists _, _, _. split; [by vm_compute|]. by vm_compute. Qed.
Print Assumptions C76_orders.
Print Assumptions C76_answers.
Print Assumptions C76_alone.
Print Assumptions C76_total.
Print Assumptions C76_other_carts.
Print Assumptions C76_unknown_refuted.
Print Assumptions C76_cart_refuted.
Print Assumptions C76_meanwhile_refuted.
Print Assumptions C76_retry_refuted.

(** ** C77: shipping *)

(** A recorded shipment is "awaiting shipment" or "shipped", for the customer who ordered; once shipped it stays
    so; no shipment is twice in the queue or with two queue masters; and unless the answer of a Pop was lost, one
    that is not shipped is in the queue or with a queue master. *)
Theorem C77_accounted E n es w :
  reaches E n es w →
  NoDup (sh_id <$> w_shipments w) ∧
  (∀ x, x ∈ w_shipments w → sh_status x = "awaiting shipment" ∨ sh_status x = "shipped") ∧
  (∀ x, x ∈ w_shipments w → ar_customer ∘ fst <$> w_calls w !! sh_id x = Some (sh_name x)) ∧
  NoDup ((sh_id <$> w_queue w) ++ (sh_id <$> omap (λ m, m) (w_masters w))) ∧
  (Forall (λ e, ¬ pop_lost e) es → ∀ x, x ∈ w_shipments w → sh_status x = "shipped" ∨ waiting w (sh_id x)).
Proof.
  intros Hr. pose proof (stores_reach E n es w Hr) as [H1 H2 H3 H4 H5 H6 H7]. split_and!; [done| | |done|].
  - intros x Hx. destruct (H3 x Hx) as (_&_&Hs). set_solver.
  - intros x Hx. destruct (H3 x Hx) as (_&(g&Hg&->)&_). unfold asked in Hg. rewrite option_fmap_compose. by rewrite Hg.
  - intros Hf x Hx. destruct (kept_reach E n es w Hr Hf) as [_ K]. rewrite <-wids_waiting. by apply K.
Qed.
Theorem C77_stays_shipped E es w w' i : run_world E es w = Some w' → shipped w i → shipped w' i.
Proof.
  revert w. induction es as [|e es IH]; intros w; simpl; [by intros [= <-]|].
  destruct (step E e w) as [w1|] eqn:Ew; [|done]. intros Hr Hs. eapply IH; [done|]. by eapply shipped_step.
Qed.
(** If everything waiting is recorded (no NewOrder failed half-way) and UpdateOne counts matching documents, then
    the queue masters ship everything, whatever order they work in: every step brings them closer, there is
    always a step they can do, and when nothing is left to do, all shipments are shipped. *)
Theorem C77_delivery E n es w :
  e_modified E = false → n ≠ 0 → reaches E n es w → Forall (λ e, ¬ pop_lost e) es →
  (∀ i, waiting w i → recorded w i) →
  ∀ es' w', Forall master_works es' → run_world E es' w = Some w' →
    length es' + left_to_do w' = left_to_do w ∧
    (left_to_do w' ≠ 0 → ∃ e, master_works e ∧ is_Some (step E e w')) ∧
    (left_to_do w' = 0 → all_shipped w').
Proof.
  intros He Hn Hr Hf Hw es' w' Hm Hr'.
  assert (sound w) as Hs.
  { intros i Hi%wids_waiting. destruct (Hw i Hi) as (x&Hx&<-). by apply elem_of_list_fmap_1. }
  destruct (works_run E es' w w' He Hs Hm Hr') as (A1&A2&A3). split_and!.
  - lia.
  - intros Hl. apply can_work; [done|]. intros Hnil. rewrite Hnil in A3. simpl in A3.
    assert (length (w_masters w) = n) as Hlen; [|lia]. clear -Hr. revert es w Hr.
    apply (reaches_ind E n (λ es w, length (w_masters w) = n)); [simpl; apply replicate_length|].
    intros es e w w' _ IH Hs. destruct e as [g|t k f|t f|c l|u a c|m f|m f]; simpl in Hs.
    + by injection Hs as <-.
    + destruct (w_calls w !! t) as [[g s]|]; [|done]. destruct (fetch E w g k f s); [|done]. by injection Hs as <-.
    + destruct (w_calls w !! t) as [[g s]|]; [|done].
      destruct s as [i u a c|l a c|l a c|l a c|l a c|o|r]; simpl in Hs; [done| | | | | |done]; injection Hs as <-; by destruct f.
    + by injection Hs as <-.
    + by injection Hs as <-.
    + unfold pop in Hs. destruct (w_masters w !! m) as [[|]|]; [done| |done]. destruct (w_queue w); [done|].
      injection Hs as <-. destruct f; simpl; by rewrite ?insert_length.
    + unfold ship in Hs. destruct (w_masters w !! m) as [[x|]|]; [|done|done]. destruct (update_status _ _ _ _) as [l k].
      injection Hs as <-. destruct f; simpl; [|done|done]. destruct (Nat.eqb k 0); by rewrite ?insert_length.
  - intros Hl x Hx.
    assert (reaches E n (es ++ es') w') as Hr2.
    { unfold reaches. rewrite run_app2. unfold reaches in Hr. by rewrite Hr. }
    assert (Forall (λ e, ¬ pop_lost e) (es ++ es')) as Hf2.
    { apply Forall_app. split; [done|]. eapply Forall_impl; [exact Hm|]. intros [| | | | |m []|m []]; simpl; auto. }
    destruct (kept_reach E n _ w' Hr2 Hf2) as [_ K]. destruct (K x Hx) as [?|Hi]; [done|]. exfalso.
    unfold left_to_do in Hl. rewrite holding_omap in Hl. unfold wids in Hi.
    destruct (w_queue w'); simpl in Hl; [|lia]. destruct (omap (λ m, m) (w_masters w')); simpl in *; [set_solver|lia].
Qed.
Example C77_delivery_ex :
  ∃ w w', reaches E0 2 (Cart "alice" [sock] :: Start g0 :: fetches 0 ++ replicate 5 (Step 0 Fine) ++
                        Cart "alice" [hat] :: Start g0 :: fetches 1 ++ replicate 5 (Step 1 Fine)) w ∧
    left_to_do w = 4 ∧ run_world E0 [Pop 1 Fine; Pop 0 Fine; Ship 0 Fine; Ship 1 Fine] w = Some w' ∧
    w_shipments w' = [Shipment 0 "alice" "shipped"; Shipment 1 "alice" "shipped"].
Proof. eexists _, _. split; [by vm_compute|]. split; [by vm_compute|]. split; by vm_compute. Qed.
(** Otherwise shipping may stop for good.  A queue master that got a shipment whose record was never written (the
    NewOrder call failed or crashed after queueing it) keeps trying for ever; if it is the only one, no shipment
    changes status and nothing leaves the queue any more. *)
Theorem C77_blocked E es w w' m x :
  w_masters w !! m = Some (Some x) → ¬ recorded w (sh_id x) → (∀ f, Step (sh_id x) f ∉ es) →
  run_world E es w = Some w' →
  w_masters w' !! m = Some (Some x) ∧ ¬ recorded w' (sh_id x) ∧
  (w_masters w = [Some x] → w_shipments w `prefix_of` w_shipments w' ∧ w_queue w `prefix_of` w_queue w').
Proof.
  intros Hm Hnr Hne Hr.
  assert (∀ w, ¬ recorded w (sh_id x) ↔ sh_id x ∉ sh_id <$> w_shipments w) as Hiff.
  { intros w0. unfold recorded. rewrite elem_of_list_fmap. naive_solver. }
  rewrite Hiff in Hnr. rewrite Hiff. destruct (blocked_run E es w w' m x Hm Hnr Hne Hr) as [A B]. split_and!; [done|done|].
  intros H1. clear A B. assert (m = 0) as -> by (rewrite H1 in Hm; by destruct m). revert w Hm Hnr Hr H1.
  induction es as [|e es IH]; intros w Hm Hnr; simpl; [by intros [= <-] _|].
  destruct (step E e w) as [w1|] eqn:Ew; [|done]. intros Hr H1.
  destruct (blocked_step E e w w1 0 x Hm Hnr) as [A B]; [|done|].
  { intros f ->. apply (Hne f). set_solver. }
  destruct (frozen_step E e w w1 x H1 Hnr Ew) as [F1 F2].
  assert (w_masters w1 = [Some x]) as H2.
  { destruct e as [g|t k f|t f|c l|u a c|m' f|m' f]; simpl in Ew.
    - by injection Ew as <-.
    - destruct (w_calls w !! t) as [[g s]|]; [|done]. destruct (fetch E w g k f s); [|done]. by injection Ew as <-.
    - destruct (w_calls w !! t) as [[g s]|]; [|done].
      destruct s as [i u a c|l a c|l a c|l a c|l a c|o|r]; simpl in Ew; [done| | | | | |done]; injection Ew as <-; by destruct f.
    - by injection Ew as <-.
    - by injection Ew as <-.
    - unfold pop in Ew. rewrite H1 in Ew. by destruct m'.
    - unfold ship in Ew. rewrite H1 in Ew. destruct m' as [|m']; [|done]. simpl in Ew.
      destruct (update_status _ _ _ _) as [l k] eqn:Eu. rewrite update_absent in Eu by done. simplify_eq. by destruct f. }
  destruct (IH) with (w := w1) as [G1 G2]; [|done..|].
  - intros f Hf. apply (Hne f). set_solver.
  - split; by etrans.
Qed.
(** With a database that counts modified documents (mongodb), one lost answer of UpdateStatus is enough. *)
Theorem C77_stuck_modified E n es w m x :
  e_modified E = true → reaches E n es w → w_masters w !! m = Some (Some x) → shipped w (sh_id x) →
  ∀ es' w', run_world E es' w = Some w' → w_masters w' !! m = Some (Some x).
Proof.
  intros He Hr Hm Hs es' w' Hr'. revert es w Hr Hm Hs Hr'. induction es' as [|e es' IH]; intros es w Hr Hm Hs; simpl; [by intros [= <-]|].
  destruct (step E e w) as [w1|] eqn:Ew; [|done]. eapply (IH (es ++ [e])).
  - unfold reaches. rewrite run_app. unfold reaches in Hr. by rewrite Hr.
  - eapply stuck_step; [done|apply (st_shipments_once _ _ _ _ (stores_reach E n es w Hr))|done|done|done].
  - by eapply shipped_step.
Qed.
(** Both happen. *)
Theorem C77_blocked_refuted :
  (∃ w, reaches E0 1 (Cart "alice" [sock] :: Start g0 :: fetches 0 ++ [Step 0 Fine; Step 0 Fine; Step 0 Refused; Pop 0 Fine] ++
                      Start g0 :: fetches 1 ++ replicate 5 (Step 1 Fine)) w ∧
     w_masters w = [Some (Shipment 0 "alice" "awaiting shipment")] ∧ w_calls w !! 0 = Some (g0, Done Failed) ∧
     w_shipments w = [Shipment 1 "alice" "awaiting shipment"] ∧ length (w_orders w) = 1) ∧
  ∃ w, reaches E1 1 (Cart "alice" [sock] :: Start g0 :: fetches 0 ++ replicate 5 (Step 0 Fine) ++ [Pop 0 Fine; Ship 0 AnswerLost]) w ∧
     w_masters w = [Some (Shipment 0 "alice" "awaiting shipment")] ∧ w_shipments w = [Shipment 0 "alice" "shipped"].
Proof.
  split; (eexists; split; [by vm_compute|]); by vm_compute.
Qed.
Print Assumptions C77_accounted.
Print Assumptions C77_stays_shipped.
Print Assumptions C77_delivery.
Print Assumptions C77_blocked.
Print Assumptions C77_stuck_modified.
Print Assumptions C77_blocked_refuted.
