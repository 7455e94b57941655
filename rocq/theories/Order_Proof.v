(** * Proofs about orders and shipments *)
From stdpp Require Export strings gmap numbers.
From Verif Require Export Order_Spec.
From stdpp Require Export list.
Set Default Proof Using "Type".
Open Scope list_scope.

Section order.
Context (E : env).
Notation step := (step E).
Notation run_world := (run_world E).
Notation call_step := (call_step E).
Notation proper_order := (proper_order E).
Notation during := (during E).
Notation reaches := (reaches E).

Lemma run_app es e w : run_world (es ++ [e]) w = match run_world es w with Some w' => step e w' | None => None end.
Proof.
  revert w. induction es as [|x es IH]; intros w; simpl; [by destruct (step e w)|]. by destruct (step x w).
Qed.
Lemma run_app2 es es' w :
  run_world (es ++ es') w = match run_world es w with Some w' => run_world es' w' | None => None end.
Proof. revert w. induction es as [|x es IH]; intros w; simpl; [done|]. by destruct (step x w). Qed.
(** Induction over histories. *)
Lemma reaches_ind n (P : list event → world → Prop) :
  P [] (opening n) →
  (∀ es e w w', reaches n es w → P es w → step e w = Some w' → P (es ++ [e]) w') →
  ∀ es w, reaches n es w → P es w.
Proof.
  intros H0 HS es. induction es as [|e es IH] using rev_ind; intros w Hr.
  - by injection Hr as <-.
  - unfold reaches in Hr. rewrite run_app in Hr. destruct (run_world es (opening n)) as [w0|] eqn:E0; [|done].
    by eapply HS; [done|apply IH|].
Qed.
Lemma during_app n es es' t P : during n es t P → during n (es ++ es') t P.
Proof. intros (es1&es2&w1&->&H). exists es1, (es2 ++ es'), w1. by rewrite <-app_assoc. Qed.
Lemma during_now n es w t (P : world → Prop) : reaches n es w → t < length (w_calls w) → P w → during n es t P.
Proof. intros Hr Ht HP. exists es, [], w. by rewrite app_nil_r. Qed.

(** ** How far a call is *)
Definition lvl (s : stage) : nat :=
  match s with
  | Fetching _ _ _ _ => 0 | Paying _ _ _ => 1 | Pushing _ _ _ => 2 | Recording _ _ _ => 3 | Saving _ _ _ => 4
  | Clearing _ => 5 | Done _ => 6 end.
Definition at_least (w : world) (k i : nat) : Prop := ∃ g s, w_calls w !! i = Some (g, s) ∧ k ≤ lvl s.
Definition asked (w : world) (i : nat) (g : args) : Prop := fst <$> w_calls w !! i = Some g.
Definition grows (w w' : world) : Prop :=
  (∀ i g, asked w i g → asked w' i g) ∧ ∀ k i, at_least w k i → at_least w' k i.
Lemma grows_refl w w' : w_calls w = w_calls w' → grows w w'.
Proof. unfold grows, asked, at_least. by intros ->. Qed.
Lemma grows_put w w1 t g s s' :
  w_calls w !! t = Some (g, s) → lvl s ≤ lvl s' → w_calls w1 = w_calls w → grows w (put t g s' w1).
Proof.
  intros Ht Hl E1. assert (t < length (w_calls w)) as Hlt by by eapply lookup_lt_Some.
  split.
  - intros i g'. unfold asked, put. simpl. rewrite E1. destruct (decide (i = t)) as [->|].
    + by rewrite list_lookup_insert, Ht.
    + by rewrite list_lookup_insert_ne.
  - intros k i (g'&s0&H&Hk). unfold at_least, put. simpl. rewrite E1. destruct (decide (i = t)) as [->|].
    + rewrite list_lookup_insert by done. exists g, s'. split; [done|]. simplify_eq. lia.
    + rewrite list_lookup_insert_ne by done. eauto.
Qed.
Lemma joined_lvl i u a c : lvl (joined (Fetching i u a c)) ∈ [0; 1; 6].
Proof.
  destruct i as [[[|x r]|]|], u as [[|]|], a as [[|]|], c as [[|]|]; simpl; set_solver.
Qed.
Lemma under_calls f eff ok fail lost t g w :
  (∀ w, w_calls (eff w) = w_calls w) →
  ∃ s' w1, under f eff ok fail lost t g w = put t g s' w1 ∧ w_calls w1 = w_calls w ∧ s' ∈ [ok; fail; lost].
Proof. intros He. destruct f; simpl; eexists _, _; (split; [done|]); rewrite ?He; set_solver. Qed.
Lemma call_step_put t g s f w w' :
  call_step t g s f w = Some w' → ∃ s' w1, w' = put t g s' w1 ∧ w_calls w1 = w_calls w ∧ lvl s < lvl s'.
Proof.
  destruct s as [i u a c|l a c|l a c|l a c|l a c|o|r]; simpl; [done| | | | | |done]; intros [= <-].
  - destruct (under_calls f id (if authorised E (total_price E l) then Pushing l a c else Done Failed) (Done Failed) (Done Failed) t g w)
      as (s'&w1&->&Hw&Hs); [done|]. exists s', w1. split_and!; [done..|]. destruct (authorised _ _); set_unfold in Hs; naive_solver (simpl; lia).
  - edestruct (under_calls f) as (s'&w1&->&Hw&Hs); [|exists s', w1; split_and!; [done..|]; set_unfold in Hs; naive_solver (simpl; lia)]. done.
  - edestruct (under_calls f) as (s'&w1&->&Hw&Hs); [|exists s', w1; split_and!; [done..|]; set_unfold in Hs; naive_solver (simpl; lia)]. done.
  - edestruct (under_calls f) as (s'&w1&->&Hw&Hs); [|exists s', w1; split_and!; [done..|]; set_unfold in Hs; naive_solver (simpl; lia)]. done.
  - edestruct (under_calls f) as (s'&w1&->&Hw&Hs); [|exists s', w1; split_and!; [done..|]; set_unfold in Hs; naive_solver (simpl; lia)]. done.
Qed.
Lemma fetch_was w g k f s s' : fetch E w g k f s = Some s' → ∃ i u a c, s = Fetching i u a c.
Proof. destruct s; simpl; [eauto|done..]. Qed.
Lemma step_grows e w w' : step e w = Some w' → grows w w'.
Proof.
  destruct e as [g|t k f|t f|c l|u a c|m f|m f]; simpl.
  - intros [= <-]. split.
    + intros i g'. unfold asked. simpl. destruct (w_calls w !! i) as [x|] eqn:Ei; [|done]. by rewrite (lookup_app_l_Some _ _ _ _ Ei).
    + intros k i (g'&s&H&Hk). exists g', s. split; [|done]. simpl. by apply lookup_app_l_Some.
  - destruct (w_calls w !! t) as [[g s]|] eqn:Et; [|done]. destruct (fetch E w g k f s) as [s'|] eqn:Ef; [|done].
    intros [= <-]. apply fetch_was in Ef as (i&u&a&c&->). eapply grows_put; [done|simpl; lia|done].
  - destruct (w_calls w !! t) as [[g s]|] eqn:Et; [|done]. intros (s'&w1&->&Hw&Hl)%call_step_put.
    eapply grows_put; [done|lia|done].
  - intros [= <-]. by apply grows_refl.
  - intros [= <-]. by apply grows_refl.
  - unfold pop. destruct (w_masters w !! m) as [[|]|]; [done| |done]. destruct (w_queue w); [done|].
    intros [= <-]. apply grows_refl. by destruct f.
  - unfold ship. destruct (w_masters w !! m) as [[x|]|]; [|done|done]. destruct (update_status _ _ _ _) as [l n].
    intros [= <-]. apply grows_refl. by destruct f.
Qed.

(** ** What a call knows *)
Definition args_ok (g : args) : Prop := ar_customer g ≠ "" ∧ ar_address g ≠ "" ∧ ar_card g ≠ "" ∧ ar_cart g ≠ "".
Definition saw_items n es t g l := during n es t (λ w', cart_of w' (ar_cart g) = l).
Definition saw_address n es t g a := during n es t (λ w', look E (w_addresses w') (ar_address g) = Some a).
Definition saw_card n es t g c := during n es t (λ w', look E (w_cards w') (ar_card g) = Some c).
Definition knows n es t g l a c : Prop :=
  args_ok g ∧ l ≠ [] ∧ saw_items n es t g l ∧ saw_address n es t g a ∧ saw_card n es t g c.
Definition made n es t g (o : purchase) : Prop :=
  ∃ l a c, o = new_order E t g l a c ∧ knows n es t g l a c ∧ authorise E (total_price E l) = Some true.
Definition stage_ok n es t g (s : stage) : Prop :=
  match s with
  | Fetching i u a c =>
      args_ok g ∧ (∀ l, i = Some (Some l) → saw_items n es t g l) ∧
      (∀ x, a = Some (Some x) → saw_address n es t g x) ∧ (∀ x, c = Some (Some x) → saw_card n es t g x)
  | Paying l a c => knows n es t g l a c
  | Pushing l a c | Recording l a c | Saving l a c => knows n es t g l a c ∧ authorise E (total_price E l) = Some true
  | Clearing o | Done (Placed o _) => made n es t g o
  | Done Failed => True end.
Lemma knows_app n es es' t g l a c : knows n es t g l a c → knows n (es ++ es') t g l a c.
Proof. intros (H1&H2&H3&H4&H5). split_and!; try done; by apply during_app. Qed.
Lemma made_app n es es' t g o : made n es t g o → made n (es ++ es') t g o.
Proof. intros (l&a&c&H1&H2&H3). exists l, a, c. split_and!; [done|by apply knows_app|done]. Qed.
Lemma stage_ok_app n es es' t g s : stage_ok n es t g s → stage_ok n (es ++ es') t g s.
Proof.
  destruct s as [i u a c|l a c|l a c|l a c|l a c|o|[|o b]]; simpl; try done.
  - intros (H1&H2&H3&H4). split_and!; [done|..]; intros; apply during_app; [by apply H2|by apply H3|by apply H4].
  - apply knows_app.
  - intros [? ?]. split; [by apply knows_app|done].
  - intros [? ?]. split; [by apply knows_app|done].
  - intros [? ?]. split; [by apply knows_app|done].
  - apply made_app.
  - apply made_app.
Qed.
Lemma joined_ok n es t g s : stage_ok n es t g s → stage_ok n es t g (joined s).
Proof.
  destruct s as [i u a c|l a c|l a c|l a c|l a c|o|r]; simpl; try done.
  destruct i as [[[|x l]|]|], u as [[|]|], a as [[a'|]|], c as [[c'|]|]; simpl; try done.
  intros (H1&H2&H3&H4). split_and!; [apply H1..|done|by apply H2|by apply H3|by apply H4].
Qed.
Lemma begin_ok n es t g : stage_ok n es t g (begin g).
Proof.
  unfold begin. case_bool_decide as H; [done|]. simpl. split_and!; try done. unfold args_ok. naive_solver.
Qed.
Lemma authorised_iff x : authorised E x = true ↔ authorise E x = Some true.
Proof. unfold authorised. destruct (authorise E x) as [[]|]; naive_solver. Qed.

Definition stages_ok n es w : Prop := ∀ t g s, w_calls w !! t = Some (g, s) → stage_ok n es t g s.
Lemma stages_put n es e w w1 t g s' :
  stages_ok n es w → w_calls w1 = w_calls w → stage_ok n (es ++ [e]) t g s' →
  stages_ok n (es ++ [e]) (put t g s' w1).
Proof.
  intros H Hw Hs t' g' s0. unfold put. simpl. rewrite Hw. destruct (decide (t' = t)) as [->|].
  - destruct (decide (t < length (w_calls w))).
    + rewrite list_lookup_insert by done. intros [= <- <-]. done.
    + rewrite list_insert_ge by lia. intros Ht%lookup_lt_Some. lia.
  - rewrite list_lookup_insert_ne by done. intros Ht. by apply stage_ok_app, H.
Qed.
Lemma fetch_cases w g k f i u a c s' :
  fetch E w g k f (Fetching i u a c) = Some s' →
  (i = None ∧ s' = joined (Fetching (Some (match f with Fine => Some (cart_of w (ar_cart g)) | _ => None end)) u a c)) ∨
  (u = None ∧ s' = joined (Fetching i (Some (match f with Fine => look E (w_users w) (ar_customer g) | _ => None end)) a c)) ∨
  (a = None ∧ s' = joined (Fetching i u (Some (match f with Fine => look E (w_addresses w) (ar_address g) | _ => None end)) c)) ∨
  (c = None ∧ s' = joined (Fetching i u a (Some (match f with Fine => look E (w_cards w) (ar_card g) | _ => None end)))).
Proof.
  unfold fetch. destruct k as [|[|[|[|k]]]], i, u, a, c; intros [= <-]; auto.
Qed.
Lemma fetch_ok n es e w t g k f s s' :
  reaches n es w → w_calls w !! t = Some (g, s) → stage_ok n es t g s → fetch E w g k f s = Some s' →
  stage_ok n (es ++ [e]) t g s'.
Proof.
  intros Hr Ht Hs Hf. assert (t < length (w_calls w)) as Hlt by by eapply lookup_lt_Some.
  destruct (fetch_was _ _ _ _ _ _ Hf) as (i&u&a&c&->). apply (stage_ok_app n es [e]) in Hs.
  destruct Hs as (H1&H2&H3&H4).
  assert (∀ P : world → Prop, P w → during n (es ++ [e]) t P) as Hnow by (intros P HP; apply during_app; by eapply during_now).
  apply fetch_cases in Hf as [(->&->)|[(->&->)|[(->&->)|(->&->)]]]; apply joined_ok.
  - split_and!; [done| |done|done]. intros l [= Hl]. destruct f; simplify_eq. by apply Hnow.
  - split_and!; done.
  - split_and!; [done|done| |done]. intros x [= Hx]. destruct f; [|done|done]. by apply Hnow.
  - split_and!; [done..|]. intros x [= Hx]. destruct f; [|done|done]. by apply Hnow.
Qed.
Lemma call_step_ok n es e w t g s f w' :
  stages_ok n es w → w_calls w !! t = Some (g, s) → call_step t g s f w = Some w' → stages_ok n (es ++ [e]) w'.
Proof.
  intros H Ht Hc. pose proof (H _ _ _ Ht) as Hs. apply (stage_ok_app n es [e]) in Hs.
  destruct s as [i u a c|l a c|l a c|l a c|l a c|o|r]; simpl in Hc, Hs; [done| | | | | |done]; injection Hc as <-.
  - destruct f; simpl; (eapply stages_put; [done|done|]); try done.
    destruct (authorised E (total_price E l)) eqn:Ea; [|done]. apply authorised_iff in Ea. done.
  - destruct f; simpl; (eapply stages_put; [done|done|]); done.
  - destruct f; simpl; (eapply stages_put; [done|done|]); done.
  - destruct f; simpl; (eapply stages_put; [done|done|]); try done. destruct Hs as [Hk Ha]. exists l, a, c. done.
  - destruct f; simpl; (eapply stages_put; [done|done|]); done.
Qed.
Lemma stages_same n es e w w' : stages_ok n es w → w_calls w' = w_calls w → stages_ok n (es ++ [e]) w'.
Proof. intros H Hw t g s. rewrite Hw. intros. by apply stage_ok_app, H. Qed.
Lemma stages_step n es e w w' :
  reaches n es w → stages_ok n es w → step e w = Some w' → stages_ok n (es ++ [e]) w'.
Proof.
  intros Hr H. destruct e as [g|t k f|t f|c l|u a c|m f|m f]; simpl.
  - intros [= <-] t g' s. simpl. intros [Ht|[_ Ht]]%lookup_app_Some; [by apply stage_ok_app, H|].
    apply list_lookup_singleton_Some in Ht as [_ [= <- <-]]. apply begin_ok.
  - destruct (w_calls w !! t) as [[g s]|] eqn:Et; [|done]. destruct (fetch E w g k f s) as [s'|] eqn:Ef; [|done].
    intros [= <-]. eapply stages_put; [done|done|]. eapply fetch_ok; [done|done|by apply H|done].
  - destruct (w_calls w !! t) as [[g s]|] eqn:Et; [|done]. by apply call_step_ok.
  - intros [= <-]. by eapply stages_same.
  - intros [= <-]. by eapply stages_same.
  - unfold pop. destruct (w_masters w !! m) as [[|]|]; [done| |done]. destruct (w_queue w); [done|].
    intros [= <-]. eapply stages_same; [done|]. by destruct f.
  - unfold ship. destruct (w_masters w !! m) as [[x|]|]; [|done|done]. destruct (update_status _ _ _ _) as [l n0].
    intros [= <-]. eapply stages_same; [done|]. by destruct f.
Qed.
Lemma stages_reach n es w : reaches n es w → stages_ok n es w.
Proof. revert es w. apply reaches_ind; [done|]. intros. by eapply stages_step. Qed.

(** ** Updating a status *)
Lemma update_ids i st l : sh_id <$> (update_status E i st l).1 = sh_id <$> l.
Proof.
  induction l as [|x l IH]; [done|]. simpl. destruct (Nat.eqb (sh_id x) i); [done|].
  destruct (update_status E i st l) as [l' n]. simpl in *. f_equal. exact IH.
Qed.
Lemma update_old i st l y :
  y ∈ (update_status E i st l).1 →
  ∃ x, x ∈ l ∧ sh_id x = sh_id y ∧ sh_name x = sh_name y ∧ (y = x ∨ (sh_status y = st ∧ sh_id y = i)).
Proof.
  induction l as [|x l IH]; [set_solver|]. simpl. destruct (Nat.eqb_spec (sh_id x) i).
  - simpl. intros [->|Hy]%elem_of_cons.
    + exists x. split_and!; [set_solver|done|done|]. by right.
    + exists y. split_and!; [set_solver|done|done|by left].
  - destruct (update_status E i st l) as [l' n']. simpl in *. intros [->|Hy]%elem_of_cons.
    + exists x. split_and!; [set_solver|done|done|by left].
    + destruct (IH Hy) as (x'&?&?&?&?). exists x'. split_and!; [set_solver|done..].
Qed.
Lemma update_new i st l x :
  x ∈ l → ∃ y, y ∈ (update_status E i st l).1 ∧ sh_id y = sh_id x ∧ (y = x ∨ (sh_status y = st ∧ sh_id y = i)).
Proof.
  induction l as [|z l IH]; [set_solver|]. simpl. destruct (Nat.eqb_spec (sh_id z) i).
  - intros [->|Hx]%elem_of_cons; simpl.
    + eexists. split; [by apply elem_of_list_here|]. simpl. split; [done|]. by right.
    + exists x. split_and!; [set_solver|done|by left].
  - destruct (update_status E i st l) as [l' n']. simpl in *. intros [->|Hx]%elem_of_cons.
    + exists z. split_and!; [set_solver|done|by left].
    + destruct (IH Hx) as (y&?&?&?). exists y. split_and!; [set_solver|done..].
Qed.
Lemma update_hit i st l : (update_status E i st l).2 ≠ 0 → i ∈ sh_id <$> l.
Proof.
  induction l as [|x l IH]; [done|]. simpl. destruct (Nat.eqb_spec (sh_id x) i); [set_solver|].
  destruct (update_status E i st l) as [l' n']. simpl in *. intros H. apply elem_of_list_further. by apply IH.
Qed.
(** With the id in the collection (once), its status is then [st]. *)
Lemma update_done i st l y :
  NoDup (sh_id <$> l) → y ∈ (update_status E i st l).1 → sh_id y = i → sh_status y = st.
Proof.
  induction l as [|x l IH]; [set_solver|]. simpl. intros [H1 H2]%NoDup_cons.
  destruct (Nat.eqb_spec (sh_id x) i) as [e|].
  - simpl. intros [->|Hy]%elem_of_cons Hi; [done|]. exfalso. apply H1. rewrite e, <-Hi. by apply elem_of_list_fmap_1.
  - pose proof (update_ids i st l) as Hids. destruct (update_status E i st l) as [l' n']. simpl in *.
    intros [->|Hy]%elem_of_cons Hi; [done|]. by apply IH.
Qed.
Lemma update_count i st l : (update_status E i st l).2 ≤ 1.
Proof.
  induction l as [|x l IH]; simpl; [lia|]. destruct (Nat.eqb _ _); [destruct (_ && _); simpl; lia|].
  by destruct (update_status E i st l).
Qed.
Lemma update_simple i st l : e_modified E = false → i ∈ sh_id <$> l → (update_status E i st l).2 = 1.
Proof.
  intros He. induction l as [|x l IH]; [set_solver|]. simpl. destruct (Nat.eqb_spec (sh_id x) i); [by rewrite He|].
  intros [?|Hi]%elem_of_cons; [congruence|]. specialize (IH Hi). by destruct (update_status E i st l).
Qed.
Lemma update_absent i st l : i ∉ sh_id <$> l → update_status E i st l = (l, 0).
Proof.
  induction l as [|x l IH]; [done|]. simpl. intros Hi. destruct (Nat.eqb_spec (sh_id x) i); [set_solver|].
  rewrite IH by set_solver. done.
Qed.

(** ** The collections, the queue and the queue masters *)
Definition wids (w : world) : list nat := (sh_id <$> w_queue w) ++ (sh_id <$> omap (λ m, m) (w_masters w)).
Definition stored (w : world) (t : nat) (s : stage) : Prop :=
  match s with
  | Saving _ _ _ => recorded w t
  | Clearing o | Done (Placed o _) => o ∈ w_orders w
  | _ => True end.
Record stores (n : nat) (es : list event) (w : world) : Prop := Stores {
  st_orders : ∀ o, o ∈ w_orders w → at_least w 5 (od_id o) ∧ recorded w (od_id o) ∧
                     ∃ g, asked w (od_id o) g ∧ made n es (od_id o) g o;
  st_orders_once : NoDup (od_id <$> w_orders w);
  st_shipments : ∀ x, x ∈ w_shipments w → at_least w 4 (sh_id x) ∧ (∃ g, asked w (sh_id x) g ∧ sh_name x = ar_customer g) ∧
                     sh_status x ∈ ["awaiting shipment"; "shipped"];
  st_shipments_once : NoDup (sh_id <$> w_shipments w);
  st_waiting : ∀ i, i ∈ wids w → at_least w 3 i;
  st_waiting_once : NoDup (wids w);
  st_stages : ∀ t g s, w_calls w !! t = Some (g, s) → stored w t s }.
Lemma wids_waiting w i : i ∈ wids w ↔ waiting w i.
Proof.
  unfold wids, waiting. rewrite elem_of_app, !elem_of_list_fmap. split.
  - intros [(x&->&Hx)|(x&->&Hx)]; [left; eauto|]. apply elem_of_list_omap in Hx as (m&Hm&->). right. eauto.
  - intros [(x&Hx&<-)|(x&Hx&<-)]; [left; eauto|]. right. exists x. split; [done|]. apply elem_of_list_omap. eauto.
Qed.
Lemma recorded_mono w w' i :
  (∀ x, x ∈ w_shipments w → ∃ y, y ∈ w_shipments w' ∧ sh_id y = sh_id x) → recorded w i → recorded w' i.
Proof. intros H (x&Hx&<-). destruct (H x Hx) as (y&Hy&Hi). exists y. done. Qed.
Lemma stored_mono w w' t s :
  (∀ x, x ∈ w_shipments w → ∃ y, y ∈ w_shipments w' ∧ sh_id y = sh_id x) → (∀ o, o ∈ w_orders w → o ∈ w_orders w') →
  stored w t s → stored w' t s.
Proof.
  intros H1 H2. destruct s as [i u a c|l a c|l a c|l a c|l a c|o|[|o b]]; simpl; auto. by apply recorded_mono.
Qed.
(** The stages of the other calls stay as they are. *)
Lemma stages_stored_put w w1 w' t g s' :
  w' = put t g s' w1 → w_calls w1 = w_calls w →
  (∀ x, x ∈ w_shipments w → ∃ y, y ∈ w_shipments w' ∧ sh_id y = sh_id x) → (∀ o, o ∈ w_orders w → o ∈ w_orders w') →
  stored w' t s' → (∀ t g s, w_calls w !! t = Some (g, s) → stored w t s) →
  ∀ t g s, w_calls w' !! t = Some (g, s) → stored w' t s.
Proof.
  intros -> Hc H1 H2 Hs H t' g' s0. unfold put at 1. simpl. rewrite Hc. destruct (decide (t' = t)) as [->|].
  - destruct (decide (t < length (w_calls w))).
    + rewrite list_lookup_insert by done. intros [= <- <-]. done.
    + rewrite list_insert_ge by lia. intros Ht%lookup_lt_Some. lia.
  - rewrite list_lookup_insert_ne by done. intros Ht. eapply stored_mono; [done|done|]. by eapply H.
Qed.
Lemma old_order n es e w w' o :
  grows w w' → (∀ x, x ∈ w_shipments w → ∃ y, y ∈ w_shipments w' ∧ sh_id y = sh_id x) →
  (at_least w 5 (od_id o) ∧ recorded w (od_id o) ∧ ∃ g, asked w (od_id o) g ∧ made n es (od_id o) g o) →
  at_least w' 5 (od_id o) ∧ recorded w' (od_id o) ∧ ∃ g, asked w' (od_id o) g ∧ made n (es ++ [e]) (od_id o) g o.
Proof.
  intros [G1 G2] Hr (H1&H2&g&H3&H4). split_and!; [by apply G2|by eapply recorded_mono|].
  exists g. split; [by apply G1|by apply made_app].
Qed.
Lemma old_shipment w w' (x : shipment) :
  grows w w' →
  (at_least w 4 (sh_id x) ∧ (∃ g, asked w (sh_id x) g ∧ sh_name x = ar_customer g) ∧
     sh_status x ∈ ["awaiting shipment"; "shipped"]) →
  at_least w' 4 (sh_id x) ∧ (∃ g, asked w' (sh_id x) g ∧ sh_name x = ar_customer g) ∧
     sh_status x ∈ ["awaiting shipment"; "shipped"].
Proof. intros [G1 G2] (H1&(g&H2&H3)&H4). split_and!; [by apply G2| |done]. exists g. split; [by apply G1|done]. Qed.
(** Nothing stored changes. *)
Lemma stores_same n es e w w' :
  stores n es w → grows w w' → w_orders w' = w_orders w → w_shipments w' = w_shipments w → wids w' ⊆ wids w →
  NoDup (wids w') → (∀ t g s, w_calls w' !! t = Some (g, s) → stored w' t s) → stores n (es ++ [e]) w'.
Proof.
  intros [H1 H2 H3 H4 H5 H6 H7] G Ho Hs Hw Hn Hst.
  assert (∀ x, x ∈ w_shipments w → ∃ y, y ∈ w_shipments w' ∧ sh_id y = sh_id x) as Hss by (rewrite Hs; eauto).
  split; rewrite ?Ho, ?Hs; try done.
  - intros o Hin. eapply old_order; [done|done|auto].
  - intros x Hx. eapply old_shipment; [done|auto].
  - intros i Hi. apply G, H5. by apply Hw.
Qed.
Lemma at_least_exact w k t g s : w_calls w !! t = Some (g, s) → at_least w k t → k ≤ lvl s.
Proof. intros Ht (g'&s'&Ht'&Hk). by simplify_eq. Qed.
Lemma at_least_put t g s w k : t < length (w_calls w) → k ≤ lvl s → at_least (put t g s w) k t.
Proof. intros Ht Hk. exists g, s. unfold put. simpl. by rewrite list_lookup_insert. Qed.
Lemma asked_put t g s w : t < length (w_calls w) → asked (put t g s w) t g.
Proof. intros Ht. unfold asked, put. simpl. by rewrite list_lookup_insert. Qed.
Lemma nodup_snoc {A} (l : list A) x : NoDup l → x ∉ l → NoDup (l ++ [x]).
Proof. intros Hn Hx. apply NoDup_app. split_and!; [done|set_solver|apply NoDup_singleton]. Qed.

Lemma stores_call n es e w t g s f w' :
  stages_ok n es w → stores n es w → w_calls w !! t = Some (g, s) → call_step t g s f w = Some w' →
  stores n (es ++ [e]) w'.
Proof.
  intros Hk HS Ht Hc. pose proof HS as [H1 H2 H3 H4 H5 H6 H7].
  assert (t < length (w_calls w)) as Hlt by by eapply lookup_lt_Some.
  assert (∀ w1 s', w_calls w1 = w_calls w → w_orders w1 = w_orders w → w_shipments w1 = w_shipments w →
            wids w1 ⊆ wids w → NoDup (wids w1) → lvl s ≤ lvl s' → stored w1 t s' → stores n (es ++ [e]) (put t g s' w1)) as Hput.
  { intros w1 s' E1 E2 E3 E4 E5 E6 E7. eapply stores_same; [done|by eapply grows_put|done|done|done|done|].
    eapply (stages_stored_put w w1); [done|done| | |done|done].
    - simpl. rewrite E3. eauto.
    - simpl. by rewrite E2. }
  pose proof (Hk _ _ _ Ht) as Hst.
  destruct s as [i u a c|l a c|l a c|l a c|l a c|o|r]; simpl in Hc; [done| | | | | |done]; injection Hc as <-.
  - destruct f; simpl; apply Hput; simpl; try done; try lia; by destruct (authorised _ _); simpl; try lia.
  - assert (∀ s', lvl (Pushing l a c) < lvl s' → (∀ w1, stored w1 t s') →
              stores n (es ++ [e]) (put t g s' (set_queue (w_queue w ++ [new_shipment t g]) w))) as Hpush.
    { intros s' Hl Hs'. assert (grows w (put t g s' (set_queue (w_queue w ++ [new_shipment t g]) w))) as G by (eapply grows_put; [done|lia|done]).
      split.
      - intros o Ho. eapply old_order; [done|simpl; eauto|auto].
      - done.
      - intros x Hx. eapply old_shipment; [done|auto].
      - done.
      - intros i Hi. assert (i ∈ wids w ∨ i = t) as [Hi'| ->].
        { unfold wids in *. simpl in Hi. rewrite fmap_app in Hi. simpl in Hi. set_solver. }
        + by apply G, H5.
        + apply at_least_put; [done|]. simpl in Hl. lia.
      - assert (t ∉ wids w) as Hnt.
        { intros Hin%H5. apply (at_least_exact _ _ _ _ _ Ht) in Hin. simpl in Hin. lia. }
        assert (wids (put t g s' (set_queue (w_queue w ++ [new_shipment t g]) w)) ≡ₚ t :: wids w) as ->.
        { unfold wids. simpl. rewrite fmap_app. simpl. rewrite <-app_assoc. simpl. symmetry. apply Permutation_middle. }
        by constructor.
      - eapply (stages_stored_put w); [done|done|simpl; eauto|done|apply Hs'|done]. }
    destruct f; simpl; [apply Hpush|apply Hput|apply Hpush]; simpl; try done; lia.
  - assert (∀ s', lvl (Recording l a c) < lvl s' → (∀ w1, recorded w1 t → stored w1 t s') →
              stores n (es ++ [e]) (put t g s' (set_shipments (w_shipments w ++ [new_shipment t g]) w))) as Hrec.
    { intros s' Hl Hs'. set (w' := put t g s' _).
      assert (grows w w') as G by (eapply grows_put; [done|lia|done]).
      assert (∀ x, x ∈ w_shipments w → ∃ y, y ∈ w_shipments w' ∧ sh_id y = sh_id x) as Hss.
      { intros x Hx. exists x. simpl. set_solver. }
      split.
      - intros o Ho. eapply old_order; [done|done|auto].
      - done.
      - intros x Hx. simpl in Hx. apply elem_of_app in Hx as [Hx|Hx].
        + eapply old_shipment; [done|auto].
        + apply elem_of_list_singleton in Hx as ->. simpl sh_id. split_and!.
          * apply at_least_put; [done|]. simpl in Hl. lia.
          * exists g. split; [by apply asked_put|done].
          * simpl. set_solver.
      - simpl. rewrite fmap_app. simpl. apply nodup_snoc; [done|]. intros (x&->&Hx)%elem_of_list_fmap.
        destruct (H3 x Hx) as (Hal&_). apply (at_least_exact _ _ _ _ _ Ht) in Hal. simpl in Hal. lia.
      - intros i Hi. by apply G, H5.
      - done.
      - eapply (stages_stored_put w); [done|done|done|done| |done]. apply Hs'. exists (new_shipment t g). simpl. set_solver. }
    destruct f; simpl; [apply Hrec|apply Hput|apply Hrec]; simpl; try done; lia.
  - destruct Hst as [Hkn Hau]. pose proof (H7 _ _ _ Ht) as Hr. simpl in Hr.
    assert (∀ s', lvl (Saving l a c) < lvl s' → (∀ w1, new_order E t g l a c ∈ w_orders w1 → stored w1 t s') →
              stores n (es ++ [e]) (put t g s' (set_orders (w_orders w ++ [new_order E t g l a c]) w))) as Hsave.
    { intros s' Hl Hs'. set (w' := put t g s' _).
      assert (grows w w') as G by (eapply grows_put; [done|lia|done]).
      assert (∀ x, x ∈ w_shipments w → ∃ y, y ∈ w_shipments w' ∧ sh_id y = sh_id x) as Hss by (simpl; eauto).
      split.
      - intros o Ho. simpl in Ho. apply elem_of_app in Ho as [Ho|Ho].
        + eapply old_order; [done|done|auto].
        + apply elem_of_list_singleton in Ho as ->. simpl od_id. split_and!.
          * apply at_least_put; [done|]. simpl in Hl. lia.
          * done.
          * exists g. split; [by apply asked_put|]. exists l, a, c. split_and!; [done|by apply knows_app|done].
      - simpl. rewrite fmap_app. simpl. apply nodup_snoc; [done|]. intros (x&->&Hx)%elem_of_list_fmap.
        destruct (H1 x Hx) as (Hal&_). apply (at_least_exact _ _ _ _ _ Ht) in Hal. simpl in Hal. lia.
      - intros x Hx. eapply old_shipment; [done|auto].
      - done.
      - intros i Hi. by apply G, H5.
      - done.
      - eapply (stages_stored_put w); [done|done|done| | |done].
        + simpl. intros o Ho. set_solver.
        + apply Hs'. simpl. set_solver. }
    destruct f; simpl; [apply Hsave|apply Hput|apply Hsave]; simpl; try done; lia.
  - pose proof (H7 _ _ _ Ht) as Ho. simpl in Ho. destruct f; simpl; apply Hput; simpl; try done; lia.
Qed.
Lemma omap_insert (ms : list (option shipment)) m a b :
  ms !! m = Some a →
  omap (λ x, x) (<[m := b]> ms) ≡ₚ option_list b ++ (omap (λ x, x) (delete m ms)) ∧
  omap (λ x, x) ms ≡ₚ option_list a ++ omap (λ x, x) (delete m ms).
Proof.
  intros Hm. split.
  - rewrite insert_take_drop by (by eapply lookup_lt_Some). rewrite delete_take_drop.
    rewrite !omap_app. simpl. destruct b; simpl; [|done]. by rewrite <-Permutation_middle.
  - rewrite <-(take_drop_middle ms m a) at 1 by done. rewrite delete_take_drop.
    rewrite !omap_app. simpl. destruct a; simpl; [|done]. by rewrite <-Permutation_middle.
Qed.
Lemma stores_step n es e w w' :
  stages_ok n es w → stores n es w → step e w = Some w' → stores n (es ++ [e]) w'.
Proof.
  intros Hk HS Hstep. pose proof (step_grows _ _ _ Hstep) as G. pose proof HS as [H1 H2 H3 H4 H5 H6 H7].
  destruct e as [g|t k f|t f|c l|u a c|m f|m f]; simpl in Hstep.
  - injection Hstep as <-. eapply stores_same; [done|done|done|done|done|done|].
    intros t g' s. simpl. intros [Ht|[_ Ht]]%lookup_app_Some; [by apply (H7 _ _ _ Ht)|].
    apply list_lookup_singleton_Some in Ht as [_ [= <- <-]]. unfold begin. by case_bool_decide.
  - destruct (w_calls w !! t) as [[g s]|] eqn:Et; [|done]. destruct (fetch E w g k f s) as [s'|] eqn:Ef; [|done].
    injection Hstep as <-. eapply stores_same; [done|done|done|done|done|done|].
    eapply (stages_stored_put w); [done|done|simpl; eauto|done| |done].
    destruct (fetch_was _ _ _ _ _ _ Ef) as (i&u&a&c&->).
    assert (∀ i u a c w0, stored w0 t (joined (Fetching i u a c))) as Hj.
    { clear. intros i u a c w0. destruct i as [[[|]|]|], u as [[|]|], a as [[|]|], c as [[|]|]; done. }
    apply fetch_cases in Ef as [(->&->)|[(->&->)|[(->&->)|(->&->)]]]; apply Hj.
  - destruct (w_calls w !! t) as [[g s]|] eqn:Et; [|done]. by eapply stores_call.
  - injection Hstep as <-. eapply stores_same; done.
  - injection Hstep as <-. eapply stores_same; done.
  - unfold pop in Hstep. destruct (w_masters w !! m) as [[|]|] eqn:Em; [done| |done].
    destruct (w_queue w) as [|x q] eqn:Eq; [done|]. injection Hstep as <-.
    assert (wids w = sh_id x :: (sh_id <$> q) ++ (sh_id <$> omap (λ m, m) (w_masters w))) as Ew.
    { unfold wids. by rewrite Eq. }
    destruct f; simpl.
    + assert (wids (set_masters (<[m:=Some x]> (w_masters w)) (set_queue q w)) ≡ₚ wids w) as Hp.
      { rewrite Ew. unfold wids. simpl. destruct (omap_insert (w_masters w) m None (Some x) Em) as [E1 E2].
        rewrite E1, E2. simpl. symmetry. apply Permutation_middle. }
      eapply stores_same; [done|done|done|done|by rewrite Hp|by rewrite Hp|done].
    + eapply stores_same; done.
    + eapply stores_same; [done|done|done|done| | |done].
      * rewrite Ew. unfold wids. simpl. set_solver.
      * rewrite Ew in H6. by apply NoDup_cons in H6 as [_ H6].
  - unfold ship in Hstep. destruct (w_masters w !! m) as [[x|]|] eqn:Em; [|done|done].
    pose proof (update_ids (sh_id x) "shipped" (w_shipments w)) as U1.
    pose proof (update_old (sh_id x) "shipped" (w_shipments w)) as U2.
    pose proof (update_new (sh_id x) "shipped" (w_shipments w)) as U3.
    destruct (update_status E (sh_id x) "shipped" (w_shipments w)) as [l k] eqn:Eu. simpl in *.
    assert (∀ w1, w_orders w1 = w_orders w → w_shipments w1 = l → w_calls w1 = w_calls w → wids w1 ⊆ wids w →
              NoDup (wids w1) → stores n (es ++ [Ship m f]) w1) as Hup.
    { intros w1 E1 E2 E3 E4 E5.
      assert (grows w w1) as G1 by by apply grows_refl.
      assert (∀ x, x ∈ w_shipments w → ∃ y, y ∈ w_shipments w1 ∧ sh_id y = sh_id x) as Hss.
      { rewrite E2. intros z Hz. destruct (U3 z Hz) as (y&?&?&_). eauto. }
      split; rewrite ?E1, ?E2; try done.
      - intros o Ho. eapply old_order; [done|done|auto].
      - intros y Hy. destruct (U2 y Hy) as (z&Hz&Ei&En&Hst).
        destruct (old_shipment w w1 z G1 (H3 z Hz)) as (A1&A2&A3). rewrite <-Ei, <-En. split_and!; [done|done|].
        destruct Hst as [->|[-> _]]; [done|set_solver].
      - by rewrite U1.
      - intros i Hi. apply G1, H5. by apply E4.
      - intros t g s. rewrite E3. intros Ht. eapply stored_mono; [done|by rewrite E1|by eapply H7]. }
    injection Hstep as <-. destruct f; simpl.
    + apply Hup; try done; destruct (Nat.eqb k 0); try done.
      * unfold wids. simpl. destruct (omap_insert (w_masters w) m (Some x) None Em) as [E1 E2]. rewrite E1, E2. simpl. set_solver.
      * unfold wids in *. simpl. destruct (omap_insert (w_masters w) m (Some x) None Em) as [E1 E2].
        rewrite E1. simpl. rewrite E2 in H6. simpl in H6. rewrite <-Permutation_middle in H6. by apply NoDup_cons in H6 as [_ H6].
    + eapply stores_same; done.
    + apply Hup; done.
Qed.
Lemma stores_opening n : stores n [] (opening n).
Proof.
  assert (wids (opening n) = []) as Hw.
  { unfold wids. simpl. induction n as [|n IH]; [done|]. done. }
  split; simpl; try done; try apply NoDup_nil_2; try set_solver.
  - intros i. rewrite Hw. set_solver.
  - rewrite Hw. apply NoDup_nil_2.
Qed.
Lemma stores_reach n es w : reaches n es w → stores n es w.
Proof.
  intros Hr. assert (stores n es w ∧ stages_ok n es w) as [? _]; [|done]. revert es w Hr.
  apply reaches_ind; [split; [apply stores_opening|done]|]. intros es e w w' Hr [H1 H2] Hs.
  split; [by eapply stores_step|by eapply stages_step].
Qed.

(** ** No shipment gets lost *)
Definition kept (w : world) : Prop :=
  (∀ t g l a c, w_calls w !! t = Some (g, Recording l a c) → t ∈ wids w) ∧
  ∀ x, x ∈ w_shipments w → sh_status x = "shipped" ∨ sh_id x ∈ wids w.
Lemma put_recording w w1 t g s' (P : nat → Prop) :
  w_calls w1 = w_calls w → (∀ l a c, s' = Recording l a c → P t) →
  (∀ t g l a c, w_calls w !! t = Some (g, Recording l a c) → P t) →
  ∀ t0 g0 l a c, w_calls (put t g s' w1) !! t0 = Some (g0, Recording l a c) → P t0.
Proof.
  intros Hw Hs H t0 g0 l a c. unfold put. simpl. rewrite Hw. destruct (decide (t0 = t)) as [->|].
  - destruct (decide (t < length (w_calls w))).
    + rewrite list_lookup_insert by done. intros [= <- ->]. by eapply Hs.
    + rewrite list_insert_ge by lia. apply H.
  - rewrite list_lookup_insert_ne by done. apply H.
Qed.
Lemma kept_step n es e w w' :
  stores n es w → kept w → ¬ pop_lost e → step e w = Some w' → kept w'.
Proof.
  intros [H1 H2 H3 H4 H5 H6 H7] [K1 K2] Hnl. destruct e as [g|t k f|t f|c l|u a c|m f|m f]; simpl.
  - intros [= <-]. split; [|done]. intros t g' l a c. simpl. intros [Ht|[_ Ht]]%lookup_app_Some; [by eapply K1|].
    apply list_lookup_singleton_Some in Ht as [_ [= <- Hb]]. unfold begin in Hb. by case_bool_decide.
  - destruct (w_calls w !! t) as [[g s]|] eqn:Et; [|done]. destruct (fetch E w g k f s) as [s'|] eqn:Ef; [|done].
    intros [= <-]. split; [|done]. eapply (put_recording w); [done| |done]. intros l a c ->.
    destruct (fetch_was _ _ _ _ _ _ Ef) as (i&u&a0&c0&->).
    assert (∀ i u a' c', joined (Fetching i u a' c') ≠ Recording l a c) as Hj.
    { clear. intros i u a' c'. destruct i as [[[|]|]|], u as [[|]|], a' as [[|]|], c' as [[|]|]; done. }
    exfalso. apply fetch_cases in Ef as [(->&Ef)|[(->&Ef)|[(->&Ef)|(->&Ef)]]]; symmetry in Ef; by apply Hj in Ef.
  - destruct (w_calls w !! t) as [[g s]|] eqn:Et; [|done].
    destruct s as [i u a c|l a c|l a c|l a c|l a c|o|r]; simpl; [done| | | | | |done]; intros [= <-].
    + destruct f; simpl; (split; [|done]); eapply (put_recording w); try done; by destruct (authorised _ _).
    + assert (∀ s', kept (put t g s' (set_queue (w_queue w ++ [new_shipment t g]) w))) as Hp.
      { intros s'. assert (∀ i, i ∈ wids w ∨ i = t → i ∈ wids (put t g s' (set_queue (w_queue w ++ [new_shipment t g]) w))) as Hw.
        { intros i. unfold wids. simpl. rewrite fmap_app. simpl. set_solver. }
        split.
        - apply (put_recording w); [done| |].
          + intros. apply Hw. by right.
          + intros t0 g0 l0 a0 c0 Ht0. apply Hw. left. by eapply K1.
        - intros x Hx. destruct (K2 x Hx); [by left|]. right. apply Hw. by left. }
      destruct f; simpl; [apply Hp| |apply Hp]. split; [|done]. eapply (put_recording w); done.
    + assert (∀ s', (∀ l a c, s' ≠ Recording l a c) → kept (put t g s' (set_shipments (w_shipments w ++ [new_shipment t g]) w))) as Hp.
      { intros s' Hs'. split.
        - apply (put_recording w); [done| |done]. intros ? ? ? ->. by destruct (Hs' l0 a0 c0).
        - intros x Hx. simpl in Hx. apply elem_of_app in Hx as [Hx|Hx]; [by apply K2|].
          apply elem_of_list_singleton in Hx as ->. right. by eapply K1. }
      destruct f; simpl; [by apply Hp| |by apply Hp]. split; [|done]. eapply (put_recording w); done.
    + destruct f; simpl; (split; [|done]); eapply (put_recording w); done.
    + destruct f; simpl; (split; [|done]); eapply (put_recording w); done.
  - by intros [= <-].
  - by intros [= <-].
  - unfold pop. destruct (w_masters w !! m) as [[|]|] eqn:Em; [done| |done].
    destruct (w_queue w) as [|x q] eqn:Eq; [done|]. intros [= <-]. destruct f; simpl in *; [|done|done].
    assert (wids (set_masters (<[m:=Some x]> (w_masters w)) (set_queue q w)) ≡ₚ wids w) as Hp.
    { unfold wids. rewrite Eq. simpl. destruct (omap_insert (w_masters w) m None (Some x) Em) as [E1 E2].
      rewrite E1, E2. simpl. symmetry. apply Permutation_middle. }
    split; simpl.
    + intros t g l a c Ht. rewrite Hp. by eapply K1.
    + intros y Hy. rewrite Hp. by apply K2.
  - unfold ship. destruct (w_masters w !! m) as [[x|]|] eqn:Em; [|done|done].
    pose proof (update_old (sh_id x) "shipped" (w_shipments w)) as U2.
    pose proof (update_done (sh_id x) "shipped" (w_shipments w)) as U4.
    pose proof (update_hit (sh_id x) "shipped" (w_shipments w)) as U5.
    destruct (update_status E (sh_id x) "shipped" (w_shipments w)) as [l k] eqn:Eu. simpl in *.
    assert (∀ w1, w_shipments w1 = l → w_calls w1 = w_calls w → (∀ i, i ∈ wids w → i ∈ wids w1 ∨ (i = sh_id x ∧ k ≠ 0)) → kept w1) as Hup.
    { intros w1 E1 E2 E3. split.
      - intros t g l0 a c. rewrite E2. intros Ht. destruct (E3 t (K1 _ _ _ _ _ Ht)) as [?|[-> Hk]]; [done|].
        exfalso. specialize (U5 Hk). apply elem_of_list_fmap in U5 as (y&Ey&Hy).
        destruct (H3 y Hy) as (Hal&_). rewrite <-Ey in Hal. apply (at_least_exact _ _ _ _ _ Ht) in Hal. simpl in Hal. lia.
      - intros y. rewrite E1. intros Hy. destruct (decide (sh_status y = "shipped")) as [|Hns]; [by left|]. right.
        destruct (U2 y Hy) as (z&Hz&Ei&_&Hst). destruct Hst as [->|[? _]]; [|done].
        destruct (K2 z Hz) as [?|Hw]; [done|]. destruct (E3 _ Hw) as [?|[Hi Hk]]; [done|].
        exfalso. apply Hns. by apply U4. }
    intros [= <-]. destruct f; simpl.
    + apply Hup; [done|done|]. intros i Hi. destruct (Nat.eqb_spec k 0); [by left|].
      unfold wids in *. simpl. destruct (omap_insert (w_masters w) m (Some x) None Em) as [E1 E2].
      rewrite E2 in Hi. rewrite E1. simpl in *. set_solver.
    + by split.
    + apply Hup; [done|done|]. by left.
Qed.
Lemma kept_reach n es w : reaches n es w → Forall (λ e, ¬ pop_lost e) es → kept w.
Proof.
  revert es w. apply (reaches_ind n (λ es w, Forall _ es → kept w)).
  - intros _. split; [done|]. simpl. set_solver.
  - intros es e w w' Hr IH Hs Hf. apply Forall_app in Hf as [Hf He]. apply Forall_cons in He as [He _].
    eapply kept_step; [by eapply stores_reach|by apply IH|done|done].
Qed.

(** ** The queue masters at work *)
Lemma holding_omap w : holding w = length (omap (λ m, m) (w_masters w)).
Proof.
  unfold holding. induction (w_masters w) as [|[x|] l IH]; [done| |].
  - rewrite filter_cons_True by done. simpl. f_equal. exact IH.
  - rewrite filter_cons_False by naive_solver. exact IH.
Qed.
Definition sound (w : world) : Prop := ∀ i, i ∈ wids w → i ∈ sh_id <$> w_shipments w.
Lemma works_step e w w' :
  e_modified E = false → sound w → master_works e → step e w = Some w' →
  left_to_do w = S (left_to_do w') ∧ sound w' ∧ length (w_masters w') = length (w_masters w).
Proof.
  intros He Hsd. destruct e as [| | | | |m [| |]|m [| |]]; try done; intros _; simpl.
  - unfold pop. destruct (w_masters w !! m) as [[|]|] eqn:Em; [done| |done].
    destruct (w_queue w) as [|x q] eqn:Eq; [done|]. intros [= <-].
    destruct (omap_insert (w_masters w) m None (Some x) Em) as [E1 E2]. split_and!.
    + unfold left_to_do. rewrite !holding_omap. simpl. rewrite Eq, E1, E2. simpl. lia.
    + intros i Hi. simpl. apply Hsd. unfold wids in *. simpl in *. rewrite Eq. rewrite E1 in Hi. rewrite E2. simpl in *. set_solver.
    + simpl. by rewrite insert_length.
  - unfold ship. destruct (w_masters w !! m) as [[x|]|] eqn:Em; [|done|done].
    destruct (omap_insert (w_masters w) m (Some x) None Em) as [E1 E2].
    assert (sh_id x ∈ sh_id <$> w_shipments w) as Hx.
    { apply Hsd. unfold wids. rewrite E2. simpl. set_solver. }
    pose proof (update_simple (sh_id x) "shipped" (w_shipments w) He Hx) as Hn.
    pose proof (update_ids (sh_id x) "shipped" (w_shipments w)) as Hids.
    destruct (update_status E (sh_id x) "shipped" (w_shipments w)) as [l k]. simpl in *. subst k. intros [= <-]. simpl.
    split_and!.
    + unfold left_to_do. rewrite !holding_omap. simpl. rewrite E1, E2. simpl. lia.
    + intros i Hi. simpl. rewrite Hids. apply Hsd. unfold wids in *. simpl in *. rewrite E1 in Hi. rewrite E2. simpl in *. set_solver.
    + by rewrite insert_length.
Qed.
Lemma works_run es w w' :
  e_modified E = false → sound w → Forall master_works es → run_world es w = Some w' →
  left_to_do w = length es + left_to_do w' ∧ sound w' ∧ length (w_masters w') = length (w_masters w).
Proof.
  intros He. revert w. induction es as [|e es IH]; intros w Hs Hf; simpl; [by intros [= ->]|].
  apply Forall_cons in Hf as [Hf Hfs]. destruct (step e w) as [w1|] eqn:Ew; [|done]. intros Hr.
  destruct (works_step e w w1 He Hs Hf Ew) as (A1&A2&A3). destruct (IH w1 A2 Hfs Hr) as (B1&B2&B3).
  split_and!; [lia|done|congruence].
Qed.
Lemma can_work w :
  left_to_do w ≠ 0 → w_masters w ≠ [] → ∃ e, master_works e ∧ is_Some (step e w).
Proof.
  intros Hl Hm. destruct (omap (λ m, m) (w_masters w)) as [|x r] eqn:Eo.
  - assert (∃ y q, w_queue w = y :: q) as (y&q&Eq).
    { destruct (w_queue w) as [|y q] eqn:Eq; [|eauto]. unfold left_to_do in Hl. rewrite holding_omap, Eo, Eq in Hl. simpl in Hl. lia. }
    destruct (w_masters w) as [|[x|] ms] eqn:Ems; [done|done|].
    exists (Pop 0 Fine). split; [done|]. simpl. unfold pop. rewrite Ems, Eq. simpl. eauto.
  - assert (Some x ∈ w_masters w) as Hx.
    { assert (x ∈ omap (λ m, m) (w_masters w)) as Hx by (rewrite Eo; set_solver).
      apply elem_of_list_omap in Hx as (y&Hy&->). done. }
    apply elem_of_list_lookup in Hx as [m Hx]. exists (Ship m Fine). split; [done|]. simpl. unfold ship. rewrite Hx.
    destruct (update_status _ _ _ _). eauto.
Qed.

(** ** Queue masters that are stuck *)
Lemma blocked_step e w w' m x :
  w_masters w !! m = Some (Some x) → sh_id x ∉ sh_id <$> w_shipments w → (∀ f, e ≠ Step (sh_id x) f) →
  step e w = Some w' → w_masters w' !! m = Some (Some x) ∧ sh_id x ∉ sh_id <$> w_shipments w'.
Proof.
  intros Hm Hs Hne. destruct e as [g|t k f|t f|c l|u a c|m' f|m' f]; simpl.
  - by intros [= <-].
  - destruct (w_calls w !! t) as [[g s]|] eqn:Et; [|done]. destruct (fetch E w g k f s) as [s'|]; [|done]. by intros [= <-].
  - destruct (w_calls w !! t) as [[g s]|] eqn:Et; [|done].
    destruct s as [i u a c|l a c|l a c|l a c|l a c|o|r]; simpl; [done| | | | | |done]; intros [= <-]; destruct f; simpl; try done.
    + split; [done|]. rewrite fmap_app. simpl. intros [?|Hi]%elem_of_app; [done|]. apply elem_of_list_singleton in Hi.
      by apply (Hne Fine); rewrite Hi.
    + split; [done|]. rewrite fmap_app. simpl. intros [?|Hi]%elem_of_app; [done|]. apply elem_of_list_singleton in Hi.
      by apply (Hne AnswerLost); rewrite Hi.
  - by intros [= <-].
  - by intros [= <-].
  - unfold pop. destruct (w_masters w !! m') as [[|]|] eqn:Em; [done| |done]. destruct (w_queue w) as [|y q]; [done|].
    intros [= <-]. destruct f; simpl; try done. split; [|done]. rewrite list_lookup_insert_ne; [done|]. intros ->. congruence.
  - unfold ship. destruct (w_masters w !! m') as [[y|]|] eqn:Em; [|done|done].
    pose proof (update_ids (sh_id y) "shipped" (w_shipments w)) as Hids.
    destruct (update_status E (sh_id y) "shipped" (w_shipments w)) as [l k] eqn:Eu. simpl in Hids.
    intros [= <-]. destruct f; simpl; rewrite ?Hids; try done. split; [|done].
    destruct (Nat.eqb_spec k 0); [done|]. destruct (decide (m = m')) as [->|]; [|by rewrite list_lookup_insert_ne].
    rewrite Em in Hm. injection Hm as ->. rewrite (update_absent (sh_id x)) in Eu by done. by simplify_eq.
Qed.
Lemma blocked_run es w w' m x :
  w_masters w !! m = Some (Some x) → sh_id x ∉ sh_id <$> w_shipments w → (∀ f, Step (sh_id x) f ∉ es) →
  run_world es w = Some w' → w_masters w' !! m = Some (Some x) ∧ sh_id x ∉ sh_id <$> w_shipments w'.
Proof.
  revert w. induction es as [|e es IH]; intros w Hm Hs Hne; simpl; [by intros [= <-]|].
  destruct (step e w) as [w1|] eqn:Ew; [|done]. destruct (blocked_step e w w1 m x) as [H1 H2]; [done|done| |done|].
  - intros f ->. apply (Hne f). set_solver.
  - apply IH; [done|done|]. intros f Hf. apply (Hne f). set_solver.
Qed.
(** With one queue master, nothing more is shipped. *)
Lemma frozen_step e w w' x :
  w_masters w = [Some x] → sh_id x ∉ sh_id <$> w_shipments w → step e w = Some w' →
  w_shipments w `prefix_of` w_shipments w' ∧ w_queue w `prefix_of` w_queue w'.
Proof.
  intros Hm Hs. destruct e as [g|t k f|t f|c l|u a c|m' f|m' f]; simpl.
  - by intros [= <-].
  - destruct (w_calls w !! t) as [[g s]|] eqn:Et; [|done]. destruct (fetch E w g k f s) as [s'|]; [|done]. by intros [= <-].
  - destruct (w_calls w !! t) as [[g s]|] eqn:Et; [|done].
    destruct s as [i u a c|l a c|l a c|l a c|l a c|o|r]; simpl; [done| | | | | |done]; intros [= <-]; destruct f; simpl; try done;
      split; try done; by apply prefix_app_r.
  - by intros [= <-].
  - by intros [= <-].
  - unfold pop. rewrite Hm. by destruct m'.
  - unfold ship. rewrite Hm. destruct m' as [|m']; [|done]. simpl. rewrite update_absent by done.
    intros [= <-]. by destruct f.
Qed.
(** Statuses only change to "shipped". *)
Lemma shipped_step e w w' i : step e w = Some w' → shipped w i → shipped w' i.
Proof.
  intros Hs (x&Hx&Hi&Hst).
  assert (∀ w1, x ∈ w_shipments w1 → shipped w1 i) as Hsame by (intros w1 ?; by exists x).
  destruct e as [g|t k f|t f|c l|u a c|m' f|m' f]; simpl in Hs.
  - injection Hs as <-. by apply Hsame.
  - destruct (w_calls w !! t) as [[g s]|] eqn:Et; [|done]. destruct (fetch E w g k f s) as [s'|]; [|done].
    injection Hs as <-. by apply Hsame.
  - destruct (w_calls w !! t) as [[g s]|] eqn:Et; [|done].
    destruct s as [i' u a c|l a c|l a c|l a c|l a c|o|r]; simpl in Hs; [done| | | | | |done]; injection Hs as <-;
      destruct f; simpl; apply Hsame; simpl; set_solver.
  - injection Hs as <-. by apply Hsame.
  - injection Hs as <-. by apply Hsame.
  - unfold pop in Hs. destruct (w_masters w !! m') as [[|]|]; [done| |done]. destruct (w_queue w); [done|].
    injection Hs as <-. apply Hsame. by destruct f.
  - unfold ship in Hs. destruct (w_masters w !! m') as [[y|]|]; [|done|done].
    destruct (update_new (sh_id y) "shipped" (w_shipments w) x Hx) as (z&Hz&Ez&Hzz).
    destruct (update_status E (sh_id y) "shipped" (w_shipments w)) as [l k]. simpl in Hz.
    injection Hs as <-. assert (shipped (set_shipments l w) i) as Hsh.
    { exists z. split_and!; [done|congruence|]. destruct Hzz as [->|[? _]]; done. }
    destruct f; [exact Hsh|by apply Hsame|exact Hsh].
Qed.
Lemma update_again i st l x :
  e_modified E = true → NoDup (sh_id <$> l) → x ∈ l → sh_id x = i → sh_status x = st → (update_status E i st l).2 = 0.
Proof.
  intros He. induction l as [|y l IH]; [set_solver|]. simpl. intros [H1 H2]%NoDup_cons Hx Hi Hst.
  apply elem_of_cons in Hx as [->|Hx].
  - by rewrite Hi, Nat.eqb_refl, He, Hst, String.eqb_refl.
  - destruct (Nat.eqb_spec (sh_id y) i) as [e|].
    + exfalso. apply H1. rewrite e, <-Hi. by apply elem_of_list_fmap_1.
    + specialize (IH H2 Hx Hi Hst). by destruct (update_status E i st l).
Qed.
Lemma stuck_step e w w' m x :
  e_modified E = true → NoDup (sh_id <$> w_shipments w) → w_masters w !! m = Some (Some x) → shipped w (sh_id x) →
  step e w = Some w' → w_masters w' !! m = Some (Some x).
Proof.
  intros He Hn Hm (y&Hy&Hi&Hst). destruct e as [g|t k f|t f|c l|u a c|m' f|m' f]; simpl.
  - by intros [= <-].
  - destruct (w_calls w !! t) as [[g s]|] eqn:Et; [|done]. destruct (fetch E w g k f s) as [s'|]; [|done]. by intros [= <-].
  - destruct (w_calls w !! t) as [[g s]|] eqn:Et; [|done].
    destruct s as [i u a c|l a c|l a c|l a c|l a c|o|r]; simpl; [done| | | | | |done]; intros [= <-]; by destruct f.
  - by intros [= <-].
  - by intros [= <-].
  - unfold pop. destruct (w_masters w !! m') as [[|]|] eqn:Em; [done| |done]. destruct (w_queue w) as [|z q]; [done|].
    intros [= <-]. destruct f; simpl; try done. rewrite list_lookup_insert_ne; [done|]. intros ->. congruence.
  - unfold ship. destruct (w_masters w !! m') as [[z|]|] eqn:Em; [|done|done].
    destruct (decide (m = m')) as [->|].
    + rewrite Em in Hm. injection Hm as ->. pose proof (update_again _ _ _ _ He Hn Hy Hi Hst) as H0.
      destruct (update_status E (sh_id x) "shipped" (w_shipments w)) as [l k]. simpl in H0. subst k.
      intros [= <-]. by destruct f.
    + destruct (update_status E (sh_id z) "shipped" (w_shipments w)) as [l k]. intros [= <-].
      destruct f; simpl; try done. destruct (Nat.eqb k 0); [done|]. by rewrite list_lookup_insert_ne.
Qed.

(** ** Failed calls *)
Definition answered (w : world) : Prop :=
  ∀ o, o ∈ w_orders w → ∃ g s, w_calls w !! od_id o = Some (g, s) ∧ (s = Clearing o ∨ ∃ b, s = Done (Placed o b)).
Lemma answered_put w w1 t g s s' :
  w_calls w !! t = Some (g, s) → w_calls w1 = w_calls w → w_orders w1 = w_orders w →
  (∀ o, (s = Clearing o ∨ ∃ b, s = Done (Placed o b)) → (s' = Clearing o ∨ ∃ b, s' = Done (Placed o b))) →
  answered w → answered (put t g s' w1).
Proof.
  intros Ht Hw Ho Hs H o Hin. simpl in Hin. rewrite Ho in Hin. destruct (H o Hin) as (g'&s0&Hc&Hs0).
  unfold put. simpl. rewrite Hw. destruct (decide (od_id o = t)) as [Hi|].
  - rewrite Hi, list_lookup_insert by (by eapply lookup_lt_Some). exists g, s'. split; [done|]. rewrite Hi in Hc.
    simplify_eq. by apply Hs.
  - rewrite list_lookup_insert_ne by done. eauto.
Qed.
Lemma answered_step e w w' : ¬ is_answer_lost e → answered w → step e w = Some w' → answered w'.
Proof.
  intros Hne H. destruct e as [g|t k f|t f|c l|u a c|m' f|m' f]; simpl.
  - intros [= <-] o Ho. destruct (H o Ho) as (g'&s0&Hc&Hs0). exists g', s0. split; [|done]. simpl. by apply lookup_app_l_Some.
  - destruct (w_calls w !! t) as [[g s]|] eqn:Et; [|done]. destruct (fetch E w g k f s) as [s'|] eqn:Ef; [|done].
    intros [= <-]. eapply answered_put; [done|done|done| |done]. intros o Hs.
    apply fetch_was in Ef as (?&?&?&?&->). destruct Hs as [|[? ?]]; done.
  - destruct (w_calls w !! t) as [[g s]|] eqn:Et; [|done].
    destruct s as [i u a c|l a c|l a c|l a c|l a c|o|r]; simpl; [done| | | | | |done]; intros [= <-].
    + destruct f; simpl in *; [| |done]; eapply answered_put; try done; by intros ? [|[]].
    + destruct f; simpl in *; [| |done]; eapply answered_put; try done; by intros ? [|[]].
    + destruct f; simpl in *; [| |done]; eapply answered_put; try done; by intros ? [|[]].
    + destruct f; simpl in *; [| |done].
      * intros o Ho. simpl in Ho. unfold put. simpl. apply elem_of_app in Ho as [Ho|Ho].
        -- destruct (H o Ho) as (g'&s0&Hc&Hs0). destruct (decide (od_id o = t)) as [Hi|].
           ++ exfalso. rewrite Hi, Et in Hc. simplify_eq. destruct Hs0 as [|[? ?]]; done.
           ++ rewrite list_lookup_insert_ne by done. eauto.
        -- apply elem_of_list_singleton in Ho as ->. simpl. rewrite list_lookup_insert by (by eapply lookup_lt_Some). eauto.
      * eapply answered_put; try done; by intros ? [|[]].
    + destruct f; simpl in *; [| |done]; (eapply answered_put; [done|done|done| |done]); intros o' [[= ->]|[? ?]]; eauto; done.
  - by intros [= <-].
  - by intros [= <-].
  - unfold pop. destruct (w_masters w !! m') as [[|]|] eqn:Em; [done| |done]. destruct (w_queue w) as [|z q]; [done|].
    intros [= <-]. by destruct f.
  - unfold ship. destruct (w_masters w !! m') as [[z|]|] eqn:Em; [|done|done].
    destruct (update_status E (sh_id z) "shipped" (w_shipments w)) as [l k]. intros [= <-]. by destruct f.
Qed.
End order.
