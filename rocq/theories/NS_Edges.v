(** * Proofs about building the IR: nodes and edges *)
From Coq Require Import Lia.
From Verif Require Import NS_Spec NS_Proof.

Section edges.
Context (getdef : wiring).
Implicit Types (l : list nspace) (n m j p : nat) (name c k : string) (v : node) (s : state) (t : list event) (ws : list waiter) (w : waiter).

Definition acc l n ty (b : bool) : Prop := ∃ x, l !! n = Some x ∧ n_accepts x ty = b.
Lemma acc_skel l l' n ty b : skel l l' → acc l n ty b → acc l' n ty b.
Proof. intros Hk (x & Hx & Hb). destruct (skel_lookup _ _ _ _ Hk Hx) as (x' & Hx' & _ & Ha). exists x'. split; [done|congruence]. Qed.
Lemma acc_app l x n ty b : acc l n ty b → acc (l ++ [x]) n ty b.
Proof. intros (y & Hy & Hb). exists y. split; [by apply lookup_app_l_Some|done]. Qed.

Lemma added_dec l n k : added l n k ∨ ¬ added l n k.
Proof.
  unfold added. destruct (l !! n) as [x|] eqn:Hx; [|right; naive_solver]. destruct (decide (k ∈ n_added x)); [left; eauto|right; naive_solver].
Qed.
(** [A e d]: the definition has been asked for by Get ([e]) or Instantiate. *)
Implicit Type A : bool → wdef → Prop.
Record einv A l t : Prop := EInv {
  g_seen : ∀ n name v, seen l n name = Some (Some v) → added l n (nd_name v);
  g_got : ∀ n name v, EGot n name (Some v) ∈ t → added l n (nd_name v);
  g_edge : ∀ n name v, EEdge n name v ∈ t → added l n (nd_name v) ∧ nd_meta v = false ∧
      ∃ d, getdef name = Some d ∧ w_name d = name ∧ w_proxy d = false ∧ A true d ∧ acc l n (w_type d) false;
  g_node : ∀ n name v, ENode n name v ∈ t → added l n (nd_name v) ∧ EBuilt n name v ∈ t ∧
      ∃ d, getdef name = Some d ∧ w_name d = name ∧ w_proxy d = false ∧ acc l n (w_type d) true;
  g_build : ∀ n name, EBuild n name ∈ t → ∃ d, getdef name = Some d ∧ w_name d = name ∧ acc l n (w_type d) true;
  g_one : ∀ n k, count (about n k) t ≤ 1;
  g_added : ∀ n k, added l n k → ∃ name v, nd_name v = k ∧ EGot n name (Some v) ∈ t ∧
      (ENode n name v ∈ t ∨ EEdge n name v ∈ t ∨ nd_meta v = true ∨ ∃ d, getdef name = Some d ∧ (w_proxy d = true ∨ A false d)) }.

Lemma einv_mono A A' l t : (∀ e d, A e d → A' e d) → einv A l t → einv A' l t.
Proof.
  intros HA [H1 H2 H3 H4 H5 H6 H7]. split; try done.
  - intros n name v Hin. destruct (H3 _ _ _ Hin) as (Ha & Hm & d & Hd & Hn & Hp & Hx & Hr). split; [done|]. split; [done|]. exists d. naive_solver.
  - intros n k Hk. destruct (H7 _ _ Hk) as (name & v & Hv & Hg & Hc). exists name, v. split; [done|]. split; [done|]. destruct Hc as [?|[?|[?|(d & Hd & [?|?])]]]; [by left|by right; left|by right; right; left|right; right; right; exists d; split; [done|by left]|right; right; right; exists d; split; [done|right; by apply HA]].
Qed.
Definition okev A l (e : event) : Prop :=
  match e with
  | EBuild n name => ∃ d, getdef name = Some d ∧ w_name d = name ∧ acc l n (w_type d) true
  | EGot n name (Some v) => added l n (nd_name v)
  | EEdge _ _ _ | ENode _ _ _ => False
  | _ => True
  end.
Lemma einv_quiet A l l' t es :
  (∀ n ty b, acc l n ty b → acc l' n ty b) → (∀ n name v, seen l' n name = Some (Some v) → seen l n name = Some (Some v)) → (∀ n k, added l' n k ↔ added l n k) →
  (∀ e, e ∈ es → okev A l e) → einv A l t → einv A l' (t ++ es).
Proof.
  intros Hk Hs Ha He [H1 H2 H3 H4 H5 H6 H7]. split.
  - intros n name v Hv%Hs. apply Ha. by eapply H1.
  - intros n name v [Hin|Hin]%elem_of_app; apply Ha; [by eapply H2|]. by apply He in Hin.
  - intros n name v [Hin|Hin]%elem_of_app; [|by apply He in Hin]. destruct (H3 _ _ _ Hin) as (Ha' & Hm & d & Hd & Hn & Hp & Hx & Hr).
    split; [by apply Ha|]. split; [done|]. exists d. split_and!; try done. by apply Hk.
  - intros n name v [Hin|Hin]%elem_of_app; [|by apply He in Hin]. destruct (H4 _ _ _ Hin) as (Ha' & Hm & d & Hd & Hn & Hp & Hr).
    split; [by apply Ha|]. split; [mem|]. exists d. split_and!; try done. by apply Hk.
  - intros n name [Hin|Hin]%elem_of_app.
    + destruct (H5 _ _ Hin) as (d & Hd & Hn & Hr). exists d. split_and!; try done. by apply Hk.
    + apply He in Hin as (d & Hd & Hn & Hr). exists d. split_and!; try done. by apply Hk.
  - intros n k. rewrite count_app, (count_none _ es); [specialize (H6 n k); lia|]. intros e Hin%He Hb. by destruct e.
  - intros n k Hn%Ha. destruct (H7 _ _ Hn) as (name & v & Hv & Hg & Hc). exists name, v. split; [done|]. split; [mem|]. destruct_or?; mem.
Qed.
Lemma einv_emit A l t es : (∀ e, e ∈ es → okev A l e) → einv A l t → einv A l (t ++ es).
Proof. intros. by eapply einv_quiet. Qed.
(** A node comes to be known under a name. *)
Lemma einv_see A l l' t es n name v :
  skel l l' →
  (∀ n' name', seen l' n' name' = if decide (n = n' ∧ name = name') then Some (Some v) else seen l n' name') →
  (∀ n' k, added l' n' k ↔ added l n' k ∨ (n = n' ∧ nd_name v = k)) →
  EGot n name (Some v) ∈ es →
  (∀ e, e ∈ es → match e with
     | EGot n' name' (Some v') => n' = n ∧ name' = name ∧ v' = v
     | EEdge n' name' v' => n' = n ∧ name' = name ∧ v' = v ∧ ¬ added l n (nd_name v) ∧ nd_meta v = false ∧
         ∃ d, getdef name = Some d ∧ w_name d = name ∧ w_proxy d = false ∧ A true d ∧ acc l n (w_type d) false
     | ENode n' name' v' => n' = n ∧ name' = name ∧ v' = v ∧ ¬ added l n (nd_name v) ∧ EBuilt n name v ∈ es ∧
         ∃ d, getdef name = Some d ∧ w_name d = name ∧ w_proxy d = false ∧ acc l n (w_type d) true
     | EBuild _ _ => False
     | _ => True end) →
  count (about n (nd_name v)) es ≤ 1 →
  (added l n (nd_name v) ∨ ENode n name v ∈ es ∨ EEdge n name v ∈ es ∨ nd_meta v = true ∨ ∃ d, getdef name = Some d ∧ (w_proxy d = true ∨ A false d)) →
  einv A l t → einv A l' (t ++ es).
Proof.
  intros Hk Hs Ha Hgot He Hone Hex [H1 H2 H3 H4 H5 H6 H7]. split.
  - intros n' name' v'. rewrite Hs. case_decide as Hd.
    + destruct Hd as [<- <-]. intros [= <-]. apply Ha. by right.
    + intros Hv. apply Ha. left. by eapply H1.
  - intros n' name' v' [Hin|Hin]%elem_of_app; apply Ha; [left; by eapply H2|]. apply He in Hin as (-> & -> & ->). by right.
  - intros n' name' v' [Hin|Hin]%elem_of_app.
    + destruct (H3 _ _ _ Hin) as (Ha' & Hm & d & Hd & Hn & Hp & Hx & Hr). split; [apply Ha; by left|]. split; [done|]. exists d. split_and!; try done. by eapply acc_skel.
    + apply He in Hin as (-> & -> & -> & _ & Hm & d & Hd & Hn & Hp & Hx & Hr). split; [apply Ha; by right|]. split; [done|]. exists d. split_and!; try done. by eapply acc_skel.
  - intros n' name' v' [Hin|Hin]%elem_of_app.
    + destruct (H4 _ _ _ Hin) as (Ha' & Hm & d & Hd & Hn & Hp & Hr). split; [apply Ha; by left|]. split; [mem|]. exists d. split_and!; try done. by eapply acc_skel.
    + apply He in Hin as (-> & -> & -> & _ & Hm & d & Hd & Hn & Hp & Hr). split; [apply Ha; by right|]. split; [mem|]. exists d. split_and!; try done. by eapply acc_skel.
  - intros n' name' [Hin|Hin]%elem_of_app; [|by apply He in Hin]. destruct (H5 _ _ Hin) as (d & Hd & Hn & Hr). exists d. split_and!; try done. by eapply acc_skel.
  - intros n' k. rewrite count_app. destruct (decide (count (about n' k) es = 0)) as [Hz|Hz]; [specialize (H6 n' k); lia|].
    assert (n' = n ∧ k = nd_name v ∧ ¬ added l n (nd_name v)) as (-> & -> & Hna).
    { destruct (filter (about n' k) es) as [|e es'] eqn:Hf; [unfold count in Hz; by rewrite Hf in Hz|].
      assert (e ∈ filter (about n' k) es) as [Hab Hin]%elem_of_list_filter by (rewrite Hf; by left). apply He in Hin.
      destruct e; try done; destruct Hab as [-> <-]; naive_solver. }
    rewrite (count_none _ t); [lia|]. intros e Hin Hab. destruct Hna. destruct e; try done; destruct Hab as [-> <-]; [by apply H4 in Hin as [? _]|by apply H3 in Hin as [? _]].
  - intros n' k Hn%Ha. assert (added l n' k ∨ n' = n ∧ k = nd_name v ∧ ¬ added l n' k) as [Hn'|(-> & -> & Hna)].
    { destruct Hn as [|[-> <-]]; [by left|]. destruct Hex as [|Hex]; [by left|]. 
      destruct (added_dec l n' (nd_name v)); [by left|by right]. }
    + destruct (H7 _ _ Hn') as (name' & v' & Hv & Hg & Hc). exists name', v'. split; [done|]. split; [mem|]. destruct_or?; mem.
    + destruct Hex as [|Hex]; [done|]. exists name, v. split; [done|]. split; [mem|]. destruct_or?; mem.
Qed.

Definition wask A w : Prop := match w with WAlias _ _ => True | WOuter _ name e _ => ∃ d, getdef name = Some d ∧ A e d end.
Definition wnext m w : Prop := match w with WAlias n _ => n = m | WOuter _ _ _ _ => True end.
Lemma einv_resume_some A s w v m : wok getdef (nss s) w → wask A w → wnext m w → added (nss s) m (nd_name v) →
  einv A (nss s) (trace s) →
  einv A (nss (resume (Some v) s w)) (trace (resume (Some v) s w)) ∧ added (nss (resume (Some v) s w)) (wn w) (nd_name v).
Proof.
  intros Hw Ha Hn Hm Hi. pose proof (wok_lt _ _ _ Hw) as Hlt. split.
  - rewrite resume_trace. destruct w as [n name|n name e pr]; cbn [wn wname wask wnext] in *.
    + subst. eapply (einv_see A (nss s) _ _ _ m name v); [apply resume_skel| | | | | | |exact Hi].
      * intros n' name'. by rewrite resume_seen_some.
      * intros n' k. rewrite resume_added by done. split; [tauto|]. intros [?|[<- <-]]; by left.
      * unfold resume_events. mem.
      * intros x Hx. simpl in Hx. by apply elem_of_list_singleton in Hx as ->.
      * unfold count. simpl. lia.
      * by left.
    + destruct Hw as (_ & d & x & Hd & Hnm & Hp & Hx & Hrej). destruct Ha as (d' & Hd' & HA). assert (d' = d) as -> by congruence.
      eapply (einv_see A (nss s) _ _ _ n name v); [apply resume_skel| | | | | | |exact Hi].
      * intros n' name'. by rewrite resume_seen_some.
      * intros n' k. by rewrite resume_added.
      * unfold resume_events. mem.
      * intros y Hy. unfold resume_events, edge_event in Hy. cbn [wn wname] in Hy. apply elem_of_app in Hy as [Hy|Hy]; [|by apply elem_of_list_singleton in Hy as ->].
        destruct (is_added s n (nd_name v)) eqn:Hadd; [by apply elem_of_nil in Hy|]. destruct (negb (nd_meta v) && e && negb pr) eqn:Hc; [|by apply elem_of_nil in Hy].
        apply elem_of_list_singleton in Hy as ->. apply andb_true_iff in Hc as [[Hc1 ->]%andb_true_iff Hc2]. apply negb_true_iff in Hc1, Hc2.
        split; [done|]. split; [done|]. split; [done|]. split; [intros Hx'%is_added_spec; congruence|]. split; [done|]. exists d. split; [done|]. split; [done|]. split; [congruence|].
        split; [done|]. by exists x.
      * unfold resume_events, edge_event. destruct (is_added s n (nd_name v)); [simpl; unfold count; simpl; lia|]. destruct (negb (nd_meta v) && e && negb pr); [|unfold count; simpl; lia].
        rewrite count_app, (count_none _ [EGot _ _ _]) by (intros ? Hz; apply elem_of_list_singleton in Hz as ->; simpl; tauto). unfold count. rewrite filter_cons. case_decide; simpl; lia.
      * destruct (is_added s n (nd_name v)) eqn:Hadd; [left; by apply is_added_spec|]. unfold resume_events, edge_event. rewrite Hadd. right. right.
        destruct (negb (nd_meta v) && e && negb pr) eqn:Hc; [left; mem|]. right. destruct (nd_meta v); [by left|]. right. exists d. split; [done|].
        destruct (w_proxy d) eqn:Hwp; [by left|]. right. rewrite <- Hp in Hc. by destruct e.
  - rewrite resume_added by done. destruct w as [n name|n name e pr]; simpl in *; [left; by subst|by right].
Qed.
Lemma einv_foldl_some A ws s v m : Forall (wok getdef (nss s)) ws → Forall (wask A) ws → chain m ws → added (nss s) m (nd_name v) →
  einv A (nss s) (trace s) → einv A (nss (foldl (resume (Some v)) s ws)) (trace (foldl (resume (Some v)) s ws)).
Proof.
  revert s m. induction ws as [|w ws IH]; intros s m Hw Ha Hc Hm Hi; [done|]. simpl. apply Forall_cons_1 in Hw as [Hw Hws]. apply Forall_cons_1 in Ha as [Ha Has].
  assert (wnext m w ∧ chain (wn w) ws) as [Hn Hc'] by (destruct w; simpl in *; tauto).
  destruct (einv_resume_some _ _ _ _ _ Hw Ha Hn Hm Hi) as [Hi' Hm']. eapply IH; [|done|exact Hc'|done|done].
  eapply Forall_impl; [exact Hws|]. intros w'. apply wok_skel, resume_skel.
Qed.
Lemma einv_foldl_none A ws s : Forall (wok getdef (nss s)) ws → einv A (nss s) (trace s) → einv A (nss (foldl (resume None) s ws)) (trace (foldl (resume None) s ws)).
Proof.
  revert s. induction ws as [|w ws IH]; intros s Hw Hi; [done|]. simpl. apply Forall_cons_1 in Hw as [Hw Hws]. apply IH.
  - eapply Forall_impl; [exact Hws|]. intros w'. apply wok_skel, resume_skel.
  - rewrite resume_trace. eapply einv_quiet; [| | | |exact Hi].
    + intros n ty b. apply acc_skel, resume_skel.
    + intros n name v. rewrite resume_seen_none by (by apply (wok_lt getdef)). destruct w; [|done]. by case_decide.
    + intros n k. apply resume_added_none.
    + intros e He. simpl in He. by apply elem_of_list_singleton in He as ->.
Qed.
Lemma einv_deliver A r s : einv A (nss s) (trace s) → einv A (nss (deliver r s)) (trace (deliver r s)).
Proof.
  intros Hi. destruct (deliver_trace r s) as (es & -> & Hes). rewrite deliver_nss. apply einv_emit; [|done]. intros e He. by destruct (Hes _ He) as (? & ? & ->).
Qed.
(** With the frames and the queue. *)
Record einvs A (reqs : list string) s : Prop := EInvS {
  h_inv : einv A (nss s) (trace s);
  h_frames : ∀ n name pr ws, FBuild n name pr ws ∈ stack s → Forall (wask A) ws;
  h_queue : ∀ id name, (id, DRequest name) ∈ queue s → name ∈ reqs }.
Lemma answer_queue r ws s : queue (answer r ws s) = queue s ∧ next (answer r ws s) = next s.
Proof.
  unfold answer. destruct (foldl_rest r ws s) as (_ & H1 & H2 & _).
  destruct (deliver_cases r (foldl (resume r) s ws)) as [(id & st & _ & ->)|[_ ->]]; cbn [emit set_status set_stack queue next]; done.
Qed.
Lemma einvs_call A reqs s n name edge : canonical getdef → wf getdef s → einvs A reqs s → n < length (nss s) → (∀ d, getdef name = Some d → A edge d) →
  einvs A reqs (call getdef s n name edge).
Proof.
  intros Hcan Hw [Hi Hf Hq] Hn HA. pose proof (call_cases getdef s n name edge) as Hc.
  pose proof (resolve_spec getdef (fuel_for n) (nss s) n name edge [] (f_older _ _ Hw) Hn Hcan) as Hr.
  assert (∀ new, Forall (λ w, wedge w edge) new → (∀ d, getdef name = Some d → Forall (λ w, wfor getdef w (w_name d)) new) → Forall (wok getdef (nss s)) new → (∃ d, getdef name = Some d) ∨ new = [] →
            Forall (wask A) new) as Hask.
  { intros new He Hfor Hok Hex. destruct Hex as [[d Hd]| ->]; [|constructor]. specialize (Hfor d Hd).
    apply Forall_forall. intros w Hin. rewrite Forall_forall in He, Hfor, Hok. specialize (He _ Hin). specialize (Hfor _ Hin). specialize (Hok _ Hin).
    destruct w as [|n' name' e' pr']; [done|]. simpl in *. subst e'. destruct Hok as (_ & d' & x & Hd' & Hn' & _). exists d'. split; [done|].
    destruct Hfor as (d'' & Hd'' & Hnm). simpl in Hd''. assert (d'' = d') as -> by congruence.
    apply HA. rewrite Hd. f_equal. apply Hcan in Hd. apply Hcan in Hd'. rewrite Hnm in Hd'. congruence. }
  destruct (resolve getdef (fuel_for n) (nss s) n name edge []) as [m k v ws| |m k ws|m k proxy ws]; rewrite Hc.
  - destruct Hr as (new & -> & G1 & G2 & G3 & G4 & G5 & G6 & G7 & G8). rewrite app_nil_r in *.
    assert (Forall (wask A) new) as Hnew.
    { apply Hask; [done|done|done|]. destruct new as [|w0 new0 _] using rev_ind; [by right|]. left. rewrite ends_app_cons in G5. injection G5 as <- <-.
      apply Forall_app in G3 as [_ [G3 _]%Forall_cons_1]. destruct w0 as [n0 name0|n0 name0 e0 p0]; simpl in *; destruct G3 as [_ G3]; [destruct G3 as (d & ? & _)|destruct G3 as (d & ? & ? & _)]; eauto. }
    split.
    + unfold answer. apply einv_deliver. pose proof (g_seen _ _ _ Hi _ _ _ G1) as Ha. apply (einv_foldl_some A new _ v m); cbn [emit nss trace]; [done|done|by apply G7|done|].
      apply einv_emit; [|done]. intros e He. by apply elem_of_list_singleton in He as ->.
    + intros n' name' pr ws Hin%answer_stack. by apply Hf in Hin.
    + intros id name'. destruct (answer_queue (Some v) new (emit [EGot m k (Some v)] s)) as [-> _]. apply Hq.
  - done.
  - destruct Hr as (new & -> & G2 & G3 & G4 & G5). rewrite app_nil_r in *. split.
    + unfold answer. apply einv_deliver, einv_foldl_none; [done|]. cbn [emit nss trace]. apply einv_emit; [|done]. intros e He. by apply elem_of_list_singleton in He as ->.
    + intros n' name' pr ws Hin%answer_stack. by apply Hf in Hin.
    + intros id name'. destruct (answer_queue None new (emit [EGot m k None] s)) as [-> _]. apply Hq.
  - destruct Hr as (new & -> & G1 & G2 & G3 & G4 & G5 & G6 & G7 & G8 & (d & Hd & Hk)). rewrite app_nil_r in *. split; cbn [emit set_stack nss stack queue trace].
    + apply einv_emit; [|done]. intros e He. apply elem_of_list_singleton in He as ->. simpl. destruct G2 as (d' & Hd' & Hn' & Hnear). exists d'. split; [done|]. split; [done|].
      apply nearest_accepts in Hnear as (x & Hx & Hacc). by exists x.
    + intros n' name' pr ws Hin. apply elem_of_cons in Hin as [Heq|Hin]; [injection Heq as -> -> -> ->|by apply Hf in Hin]. apply Hask; [done| |done|eauto].
      intros d' Hd'. assert (d' = d) as -> by congruence. rewrite Hk. eapply Forall_impl; [exact G5|]. intros w (d0 & Hd0 & Hn0 & _). exists d0. done.
    + done.
Qed.
Lemma einvs_finish A reqs s j c pr ws st r : canonical getdef → wf getdef s → einvs A reqs s → stack s = FBuild j c pr ws :: st →
  einvs A reqs (finish_build j c pr ws r (set_stack st s)).
Proof.
  intros Hcan Hw [Hi Hf Hq] Hst. destruct (f_build _ _ Hw j c pr ws) as ((d & Hd & Hdn & Hnear) & (d' & Hd' & Hp) & F3 & F4 & F5); [rewrite Hst; by left|].
  assert (d' = d) as -> by congruence.
  assert (j < length (nss s)) as Hj by (by apply nearest_lt in Hnear as [_ ?]).
  assert (Forall (wask A) ws) as Hask by (apply (Hf j c pr); rewrite Hst; by left).
  assert (∀ n name pr0 ws0, FBuild n name pr0 ws0 ∈ stack (finish_build j c pr ws r (set_stack st s)) → Forall (wask A) ws0) as Hf'.
  { intros n' name' pr' ws' Hin%finish_stack. simpl in Hin. apply (Hf n' name' pr'). rewrite Hst. by right. }
  assert (queue (finish_build j c pr ws r (set_stack st s)) = queue s) as Hqq.
  { unfold finish_build. destruct r as [v|]; [|by destruct (answer_queue None ws (emit [EFailed j c; EGot j c None] (set_stack st s))) as [-> _]].
    match goal with |- queue (answer ?r ?ws ?s) = _ => destruct (answer_queue r ws s) as [-> _] end. cbn [emit alter_ns queue].
    destruct (is_added _ _ _); [done|]. by destruct pr. }
  split; [|done|intros id name; rewrite Hqq; apply Hq].
  unfold finish_build. destruct r as [v|]; unfold answer; apply einv_deliver.
  - set (s1 := if is_added (emit [EBuilt j c v] (set_stack st s)) j (nd_name v) then emit [EBuilt j c v] (set_stack st s)
               else alter_ns (mark_added (nd_name v)) j (if pr then emit [EBuilt j c v] (set_stack st s) else emit [ENode j c v] (emit [EBuilt j c v] (set_stack st s)))).
    assert (skel (nss s) (nss s1) ∧ (∀ n name, seen (nss s1) n name = seen (nss s) n name)) as (Hk & Hse).
    { unfold s1. destruct (is_added _ _ _); [done|]. destruct pr; cbn [alter_ns emit set_stack nss stack]; (split; [by apply skel_alter|]); intros; by apply seen_alter_same. }
    assert (∀ n k, added (nss s1) n k ↔ added (nss s) n k ∨ (j = n ∧ nd_name v = k)) as Hadd.
    { unfold s1. destruct (is_added _ _ _) eqn:Hadd.
      - apply is_added_spec in Hadd. cbn [emit set_stack nss] in *. intros n k. split; [by left|]. intros [?|[<- <-]]; done.
      - intros n k. destruct pr; cbn [alter_ns emit set_stack nss]; rewrite added_mark by done; tauto. }
    assert (trace s1 = trace s ++ [EBuilt j c v] ++ (if is_added (emit [EBuilt j c v] (set_stack st s)) j (nd_name v) || pr then [] else [ENode j c v])) as Htr.
    { unfold s1. destruct (is_added _ _ _); [done|]. destruct pr; [done|]. cbn [alter_ns emit set_stack trace orb]. by rewrite (assoc_L (++)). }
    assert (j < length (nss s1)) as Hj1 by (by rewrite <- (skel_length _ _ Hk)).
    assert (skel (nss s) (alter (set_seen c (Some v)) j (nss s1))) as Hk2 by (eapply skel_trans; [exact Hk|by apply skel_alter]).
    apply (einv_foldl_some A ws _ v j); cbn [emit alter_ns nss trace].
    + eapply Forall_impl; [exact F3|]. intros w. by apply wok_skel.
    + done.
    + done.
    + apply added_alter_same; [done|]. apply Hadd. by right.
    + rewrite Htr, <- (assoc_L (++)). set (b := is_added _ j (nd_name v)) in *.
      assert (b = true ↔ added (nss s) j (nd_name v)) as Hb by apply (is_added_spec (emit [EBuilt j c v] (set_stack st s))).
      eapply (einv_see A (nss s) _ _ _ j c v); [done| | | | | | |exact Hi].
      * intros n name. rewrite seen_set by done. by rewrite Hse.
      * intros n k. rewrite added_alter_same by done. apply Hadd.
      * mem.
      * intros e He. repeat (apply elem_of_app in He as [He|He]); [by apply elem_of_list_singleton in He as ->| |by apply elem_of_list_singleton in He as ->].
        destruct b; [by apply elem_of_nil in He|]. destruct pr; [by apply elem_of_nil in He|]. apply elem_of_list_singleton in He as ->.
        split; [done|]. split; [done|]. split; [done|]. split; [intros Hx; by apply Hb in Hx|]. split; [mem|]. exists d. split; [done|]. split; [done|]. split; [done|].
        apply nearest_accepts in Hnear as (x & Hx & Hacc). by exists x.
      * rewrite !count_app. rewrite (count_none _ [EBuilt _ _ _]), (count_none _ [EGot _ _ _]) by (intros ? Hz; apply elem_of_list_singleton in Hz as ->; simpl; tauto).
        destruct (b || pr); [unfold count; simpl; lia|]. unfold count. rewrite filter_cons. case_decide; simpl; lia.
      * destruct b; [left; by apply Hb|]. right. destruct pr; [|left; mem]. right. right. right. exists d. split; [done|by left].
  - apply einv_foldl_none; [done|]. cbn [emit set_stack nss trace]. apply einv_emit; [|done]. intros e He. apply elem_of_cons in He as [->|He]; [done|]. by apply elem_of_list_singleton in He as ->.
Qed.
Lemma einvs_mono A A' reqs s : (∀ e d, A e d → A' e d) → einvs A reqs s → einvs A' reqs s.
Proof.
  intros HA [H1 H2 H3]. split; [by eapply einv_mono| |done]. intros n name pr ws Hin. eapply Forall_impl; [by eapply H2|]. intros [|? ? ? ?]; simpl; naive_solver.
Qed.
Lemma einvs_step A reqs s x s' : canonical getdef → wf getdef s → einvs A reqs s → (∀ n name v, x ≠ LPut n name v) →
  (∀ n name e d, x = LGet n name e → getdef name = Some d → A e d) → (∀ name d, name ∈ reqs → getdef name = Some d → A true d) →
  step getdef s x = Some s' → einvs A reqs s'.
Proof.
  intros Hcan Hw Hi Hnp HA HR Hstep. unfold step in Hstep. destruct (status_of s); try done. destruct x as [n name edge|n name v|n cn ac|front|r|ok|].
  - destruct (user_code s && bool_decide (n < length (nss s))) eqn:Hu; [|done]. injection Hstep as <-. apply andb_true_iff in Hu as [_ Hn%bool_decide_eq_true].
    apply einvs_call; try done. intros d. by apply (HA n).
  - by destruct (Hnp n name v).
  - destruct (user_code s); [|done]. destruct (nss s !! n) as [x|] eqn:Hx; [|done]. case_bool_decide as Hch; injection Hstep as <-; [done|].
    destruct Hi as [H1 H2 H3]. split; [|done|done]. cbn [nss trace].
    set (l := alter (add_child cn (length (nss s))) n (nss s)) in *. rewrite <- (app_nil_r (trace s)). eapply einv_quiet; [| | | |exact H1].
    + intros i ty b Hb. apply acc_app. eapply acc_skel; [|exact Hb]. by apply skel_alter.
    + intros i name v. unfold seen. destruct (decide (i < length l)).
      * rewrite lookup_app_l by done. change (seen l i name = Some (Some v) → seen (nss s) i name = Some (Some v)). unfold l. by rewrite seen_alter_same.
      * rewrite lookup_app_r by lia. destruct (i - length l) as [|z]; simpl; [by rewrite lookup_empty|done].
    + intros i k. rewrite <- (added_alter_same (add_child cn (length (nss s))) (nss s) n) by done. fold l. unfold added. destruct (decide (i < length l)).
      * by rewrite lookup_app_l.
      * rewrite lookup_app_r by lia. rewrite (lookup_ge_None_2 l) by lia. destruct (i - length l) as [|z]; simpl; [|done]. split; [|naive_solver]. intros (y & [= <-] & Hy). simpl in Hy. mem.
    + by intros e ?%elem_of_nil.
  - destruct (user_code s); [|done]. injection Hstep as <-. destruct Hi as [H1 H2 H3]. split; cbn [defer nss stack trace queue]; [|done|].
    + apply einv_emit; [|done]. intros e He. by apply elem_of_list_singleton in He as ->.
    + intros id name Hin. apply (H3 id). destruct front; mem.
  - destruct (stack s) as [|[n name proxy ws| |] st] eqn:Hst; try done. injection Hstep as <-. by apply einvs_finish.
  - destruct (stack s) as [|[|id|] st] eqn:Hst; try done. injection Hstep as <-. destruct Hi as [H1 H2 H3]. split; cbn [emit set_status set_stack nss stack trace queue]; [| |done].
    + apply einv_emit; [|done]. intros e He. by apply elem_of_list_singleton in He as ->.
    + intros n' name' pr ws Hin. apply (H2 n' name' pr). rewrite Hst. by right.
  - destruct (stack s) as [|f st] eqn:Hst; [|done]. destruct (queue s) as [|[id k] q] eqn:Hq.
    + injection Hstep as <-. destruct Hi as [H1 H2 H3]. by split.
    + set (s1 := State (nss s) _ q (next s) _ (trace s ++ [ERun id])) in *.
      assert (wf getdef s1) as Hw1. { eapply wf_skel; [| |exact Hw]; [done|]. simpl. intros f Hf. right. apply elem_of_list_singleton in Hf as ->. destruct k; eauto. }
      destruct Hi as [H1 H2 H3].
      assert (einvs A reqs s1) as Hi1.
      { split; cbn [s1 nss stack trace queue].
        - apply einv_emit; [|done]. intros e He. by apply elem_of_list_singleton in He as ->.
        - intros n' name' pr ws Hin. apply elem_of_list_singleton in Hin. by destruct k.
        - intros id' name Hin. apply (H3 id'). rewrite Hq. by right. }
      destruct k as [name|]; injection Hstep as <-; [|done]. apply einvs_call; try done.
      * destruct (f_root _ _ Hw) as (x & Hx & _). by apply lookup_lt_Some in Hx.
      * intros d. apply HR. apply (H3 id). rewrite Hq. by left.
Qed.
Lemma init_trace reqs e : e ∈ trace (init reqs) → ∃ id, e = EDefer id true.
Proof.
  unfold init. assert (∀ s, (∀ e, e ∈ trace s → ∃ id, e = EDefer id true) → ∀ e, e ∈ trace (foldl (λ s name, defer true (DRequest name) s) s reqs) → ∃ id, e = EDefer id true) as Hg.
  { induction reqs as [|r reqs IH]; intros s Hs; [done|]. simpl. apply IH. simpl. intros e' [He|He]%elem_of_app; [by apply Hs|]. apply elem_of_list_singleton in He as ->. eauto. }
  apply Hg. by intros ? ?%elem_of_nil.
Qed.
Lemma init_queue reqs s : queue (foldl (λ s name, defer true (DRequest name) s) s reqs) = reverse (imap (λ i name, (next s + i, DRequest name)) reqs) ++ queue s.
Proof.
  revert s. induction reqs as [|r reqs IH]; intros s; [done|]. cbn [foldl]. rewrite IH. cbn [defer queue next]. rewrite imap_cons, reverse_cons, <- (assoc_L (++)). rewrite Nat.add_0_r. simpl.
  f_equal. f_equal. apply imap_ext. intros i x _. simpl. f_equal. lia.
Qed.
Lemma einvs_init A reqs : einvs A reqs (init reqs).
Proof.
  destruct (init_facts reqs (State [root] [] [] 0 Going [])) as (H1 & H2 & _). fold (init reqs) in *.
  split; [|by rewrite H2; intros ? ? ? ? ?%elem_of_nil|].
  - rewrite H1. split.
    + intros n name v. unfold seen. destruct n; simpl; [by rewrite lookup_empty|done].
    + intros n name v Hin. by destruct (init_trace _ _ Hin).
    + intros n name v Hin. by destruct (init_trace _ _ Hin).
    + intros n name v Hin. by destruct (init_trace _ _ Hin).
    + intros n name Hin. by destruct (init_trace _ _ Hin).
    + intros n k. rewrite count_none; [lia|]. intros e Hin Hb. by destruct (init_trace _ _ Hin) as [? ->].
    + intros n k (x & Hx & Hk). destruct n; simpl in Hx; [|done]. injection Hx as <-. simpl in Hk. mem.
  - intros id name. unfold init. rewrite init_queue. cbn [queue next]. rewrite app_nil_r, elem_of_reverse. intros (i & x & [= -> ->] & Hx)%elem_of_lookup_imap_1. by eapply elem_of_list_lookup_2.
Qed.
Lemma einvs_run reqs ls s : canonical getdef → execution getdef reqs ls s → no_put ls → einvs (asked getdef reqs ls) reqs s.
Proof.
  intros Hcan. revert s. induction ls as [|x ls IH] using rev_ind; intros s.
  - intros [= <-] _. apply einvs_init.
  - intros (s1 & Hr & Hs)%run_snoc Hnp. assert (einvs (asked getdef reqs ls) reqs s1) as Hi.
    { apply IH; [done|]. intros n name v Hin. apply (Hnp n name v). mem. }
    eapply einvs_step; [done|by eapply wf_run| | | | |exact Hs].
    + eapply einvs_mono; [|exact Hi]. intros e d [(n & name & Hin & Hd)|[-> (name & Hin & Hd)]]; [left; exists n, name; split; [mem|done]|right; eauto].
    + intros n name v ->. apply (Hnp n name v). mem.
    + intros n name e d -> Hd. left. exists n, name. split; [mem|done].
    + intros name d Hin Hd. right. eauto.
Qed.
End edges.
