From Verif Require Import Unique_Model Unique_Spec NS_Proof.

Section proofs.
Context (getdef : wiring) (check md name : string).
Hypothesis Hne1 : check ≠ md.
Hypothesis Hcan : canonical getdef.
Notation ustep := (ustep getdef check md name).
Notation urun := (urun getdef check md name).
Implicit Types (u : ustate) (s : state).

(** ** Erasure *)
Lemma ustep_base u l u' : ustep u l = Some u' → step getdef (base u) l = Some (base u').
Proof. unfold ustep. destruct (control _ _ _ u l) as [[p c]|]; [|done]. destruct (step getdef (base u) l); [|done]. by intros [= <-]. Qed.
Lemma urun_base ls : ∀ u u', urun u ls = Some u' → run getdef (base u) ls = Some (base u').
Proof.
  induction ls as [|l ls IH]; intros u u' H; simpl in *; [by injection H as <-|].
  destruct (ustep u l) as [u1|] eqn:E; [|done]. rewrite (ustep_base _ _ _ E). by apply IH.
Qed.
Lemma urun_snoc u ls l u' : urun u (ls ++ [l]) = Some u' → ∃ u1, urun u ls = Some u1 ∧ ustep u1 l = Some u'.
Proof.
  revert u. induction ls as [|x ls IH]; intros u H; simpl in *.
  - exists u. split; [done|]. by destruct (ustep u l).
  - destruct (ustep u x) as [u1|]; [|done]. by apply IH.
Qed.

(** ** What a step does to the stack and the trace *)
Definition no_built (es : list event) : Prop := ∀ n k v, EBuilt n k v ∉ es.
Definition on_top (s : state) (n : nat) (k : string) : Prop := ∃ r, last (trace s) = Some (EGot n k r).

Lemma foldl_last r ws : ∀ s n k, last (trace s) = Some (EGot n k r) →
  last (trace (foldl (resume r) s ws)) = Some (EGot (ends n k ws).1 (ends n k ws).2 r).
Proof.
  induction ws as [|w ws IH] using rev_ind; intros s n k H; [done|].
  rewrite foldl_app. simpl. rewrite ends_app_cons. rewrite resume_trace. unfold resume_events.
  rewrite (assoc_L (++)), last_snoc. done.
Qed.
Definition req_top (st : list frame) : Prop := match st with FRequest _ :: _ => True | _ => False end.
Lemma answer_last r ws s n k : last (trace s) = Some (EGot n k r) → ¬ req_top (stack s) →
  last (trace (answer r ws s)) = Some (EGot (ends n k ws).1 (ends n k ws).2 r) ∧ stack (answer r ws s) = stack s.
Proof.
  intros H Hr. unfold answer. pose proof (foldl_rest r ws s) as (E & _). unfold deliver. rewrite E.
  destruct (stack s) as [|[] st]; simpl in Hr; try (split; [by apply foldl_last|done]). done.
Qed.
Lemma answer_ext r ws s : ∃ es, trace (answer r ws s) = trace s ++ es ∧ no_built es.
Proof. destruct (answer_quiet r ws s) as (es & E & H). exists es. split; [done|]. intros n k v Hin. by apply H in Hin. Qed.
Lemma answer_pops r ws s : stack (answer r ws s) = stack s ∨ ∃ id, stack s = FRequest id :: stack (answer r ws s).
Proof.
  unfold answer. pose proof (foldl_rest r ws s) as (E & _). unfold deliver. rewrite E.
  destruct (stack s) as [|[] st] eqn:E2; simpl; try (by left); eauto.
Qed.

(** A Get by running code. *)
Lemma get_shape s n k e s' : wf getdef s → step getdef s (LGet n k e) = Some s' →
  (∃ es, trace s' = trace s ++ es ∧ no_built es) ∧
  ((stack s' = stack s ∧ (status_of s' = Going → on_top s' n k)) ∨
   (∃ j c pr ws, stack s' = FBuild j c pr ws :: stack s ∧ ends j c ws = (n, k))).
Proof.
  intros Hw H. unfold step in H. destruct (status_of s) eqn:Hst; try done.
  destruct (user_code s && bool_decide (n < length (nss s))) eqn:Hu; [|done]. injection H as <-.
  apply andb_true_iff in Hu as [Hu Hn]. apply bool_decide_eq_true in Hn.
  assert (¬ req_top (stack s)) as Hreq. { unfold user_code in Hu. intros Hq. destruct (stack s) as [|[] ?]; simpl in *; done. }
  pose proof (call_cases getdef s n k e) as Hc.
  pose proof (resolve_spec getdef (fuel_for n) (nss s) n k e [] (f_older _ _ Hw) Hn Hcan) as Hr.
  destruct (resolve getdef (fuel_for n) (nss s) n k e []) as [m c v ws| |m c ws|m c proxy ws]; rewrite Hc.
  - destruct Hr as (new & -> & _ & _ & _ & _ & G5 & _). rewrite app_nil_r in *.
    destruct (answer_last (Some v) new (emit [EGot m c (Some v)] s) m c) as [L1 L2]; [simpl; by rewrite last_snoc|done|].
    rewrite G5 in L1. destruct (answer_ext (Some v) new (emit [EGot m c (Some v)] s)) as (es & E & Hes). split.
    + exists ([EGot m c (Some v)] ++ es). rewrite E. simpl. rewrite <- (assoc_L (++)). split; [done|].
      intros ? ? ? [Hin|Hin]%elem_of_cons; [done|by apply Hes in Hin].
    + left. split; [done|]. intros _. by exists (Some v).
  - split; [exists []; split; [by rewrite app_nil_r|by intros ??? ?%elem_of_nil]|]. left. split; [done|]. done.
  - destruct Hr as (new & -> & Hr). rewrite app_nil_r in *.
    assert (ends m c new = (n, k)) as G5 by (destruct_and?; assumption).
    destruct (answer_last None new (emit [EGot m c None] s) m c) as [L1 L2]; [simpl; by rewrite last_snoc|done|].
    rewrite G5 in L1. destruct (answer_ext None new (emit [EGot m c None] s)) as (es & E & Hes). split.
    + exists ([EGot m c None] ++ es). rewrite E. simpl. rewrite <- (assoc_L (++)). split; [done|].
      intros ? ? ? [Hin|Hin]%elem_of_cons; [done|by apply Hes in Hin].
    + left. split; [done|]. intros _. by exists None.
  - destruct Hr as (new & -> & Hr). rewrite app_nil_r in *.
    assert (ends m c new = (n, k)) as G5 by (destruct_and?; assumption).
    split; [exists [EBuild m c]; split; [done|]; intros ??? ?%elem_of_list_singleton; done|]. right. eauto 10.
Qed.
(** A build function returns. *)
Lemma return_shape s r s' : step getdef s (LReturn r) = Some s' →
  ∃ j c pr ws st, stack s = FBuild j c pr ws :: st ∧
   (∃ es, trace s' = trace s ++ es ∧ ∀ n k v, EBuilt n k v ∈ es → n = j ∧ k = c ∧ r = Some v) ∧
   ((stack s' = st ∧ (¬ req_top st → on_top s' (ends j c ws).1 (ends j c ws).2)) ∨ (∃ id, st = FRequest id :: stack s')).
Proof.
  unfold step. destruct (status_of s) eqn:Hst; try done. destruct (stack s) as [|[j c pr ws| |] st] eqn:Hs; try done.
  intros [= <-]. exists j, c, pr, ws, st. split; [done|].
  assert (∀ s1 r', stack s1 = st → last (trace s1) = Some (EGot j c r') → 
     (stack (answer r' ws s1) = st ∧ (¬ req_top st → on_top (answer r' ws s1) (ends j c ws).1 (ends j c ws).2)) ∨ (∃ id, st = FRequest id :: stack (answer r' ws s1))) as Hgen.
  { intros s1 r' E L. destruct (answer_pops r' ws s1) as [P|(id & P)]; rewrite E in P; [|by right; exists id].
    left. split; [done|]. intros Hq. exists r'. apply answer_last; [done|]. by rewrite E. }
  unfold finish_build. destruct r as [v|].
  - set (s1 := emit [EBuilt j c v] (set_stack st s)).
    set (s2 := if is_added s1 j (nd_name v) then s1 else alter_ns (mark_added (nd_name v)) j (if pr then s1 else emit [ENode j c v] s1)).
    assert (∃ es, trace s2 = trace s ++ es ∧ (∀ n k x, EBuilt n k x ∈ es → n = j ∧ k = c ∧ Some v = Some x) ∧ stack s2 = st) as (es1 & E1 & H1 & S1).
    { unfold s2, s1. destruct (is_added _ _ _); simpl; [exists [EBuilt j c v]; split_and!; try done; intros n k x Hin%elem_of_list_singleton; naive_solver|].
      destruct pr; simpl; [exists [EBuilt j c v]; split_and!; try done; intros n k x Hin%elem_of_list_singleton; naive_solver|].
      exists [EBuilt j c v; ENode j c v]. rewrite <- (assoc_L (++)). split_and!; try done. intros n k x Hin. rewrite !elem_of_cons, elem_of_nil in Hin. naive_solver. }
    set (s3 := emit [EGot j c (Some v)] (alter_ns (set_seen c (Some v)) j s2)).
    destruct (answer_ext (Some v) ws s3) as (es & E & Hes). split.
    + exists (es1 ++ [EGot j c (Some v)] ++ es). rewrite E. unfold s3. simpl. rewrite E1, <- !(assoc_L (++)). split; [done|].
      intros n k x Hin. rewrite !elem_of_app, elem_of_cons in Hin. destruct Hin as [Hin|[Hin|Hin]]; [by apply H1|done|by apply Hes in Hin].
    + apply Hgen; [done|]. unfold s3. simpl. by rewrite last_snoc.
  - set (s3 := emit [EFailed j c; EGot j c None] (set_stack st s)).
    destruct (answer_ext None ws s3) as (es & E & Hes). split.
    + exists ([EFailed j c; EGot j c None] ++ es). rewrite E. unfold s3. simpl. rewrite <- !(assoc_L (++)). split; [done|].
      intros n k x Hin. simpl in Hin. rewrite !elem_of_cons in Hin. destruct Hin as [Hin|[Hin|Hin]]; [done|done|by apply Hes in Hin].
    + apply Hgen; [done|]. unfold s3. simpl. by change [EFailed j c; EGot j c None] with ([EFailed j c] ++ [EGot j c None]); rewrite (assoc_L (++)), last_snoc.
Qed.
(** Anything else: no node is built, and the stack changes only where no build function runs on top. *)
Lemma other_shape s l s' : wf getdef s → step getdef s l = Some s' → (∀ n k e, l ≠ LGet n k e) → (∀ r, l ≠ LReturn r) →
  (∃ es, trace s' = trace s ++ es ∧ no_built es) ∧
  (stack s' = stack s ∨ (∃ id, stack s = FDeferred id :: stack s') ∨ stack s = []).
Proof.
  intros Hw H Hg Hr. unfold step in H. destruct (status_of s) eqn:Hst; try done.
  assert (Hnil : ∃ es, trace s = trace s ++ es ∧ no_built es). { exists []. split; [by rewrite app_nil_r|]. by intros ??? ?%elem_of_nil. }
  destruct l as [n k e|n k v|n c acc|front|r|ok|]; [by destruct (Hg n k e)| | | |by destruct (Hr r)| |].
  - destruct (user_code s); [|done]. destruct (nss s !! n) as [x|]; [|done].
    destruct (n_accepts x (nd_type v)).
    + injection H as <-. split; [exists [ENode n k v]; split; [done|]; intros ??? ?%elem_of_list_singleton; done|]. by left.
    + destruct (n_parent x); injection H as <-; (split; [done|by left]).
  - destruct (user_code s); [|done]. destruct (nss s !! n) as [x|]; [|done].
    destruct (bool_decide _); injection H as <-; (split; [done|by left]).
  - destruct (user_code s); [|done]. injection H as <-. split; [exists [EDefer (next s) front]; split; [done|]; intros ??? ?%elem_of_list_singleton; done|]. by left.
  - destruct (stack s) as [|[] st] eqn:Hs; try done. injection H as <-. split; [exists [EEnd id ok]; split; [done|]; intros ??? ?%elem_of_list_singleton; done|].
    right. left. by exists id.
  - destruct (stack s) as [|f st] eqn:Hs; [|done].
    split; [|by right; right]. destruct (queue s) as [|[id [rn|]] q]; injection H as <-; [done| |].
    + pose proof (call_cases getdef (State (nss s) [FRequest id] q (next s) Going (trace s ++ [ERun id])) 0 rn true) as Hc.
      set (s1 := State _ _ _ _ _ _) in *.
      destruct (resolve getdef (fuel_for 0) (nss s1) 0 rn true []) as [m c v ws| |m c ws|m c proxy ws]; rewrite Hc.
      * destruct (answer_ext (Some v) ws (emit [EGot m c (Some v)] s1)) as (es & E & Hes). rewrite E. simpl. rewrite <- !(assoc_L (++)).
        eexists. split; [done|]. intros n' k' v'. rewrite !elem_of_app, !elem_of_list_singleton. intros [|[|Hin]]; [done|done|by apply Hes in Hin].
      * exists [ERun id]. split; [done|]. intros ??? ?%elem_of_list_singleton; done.
      * destruct (answer_ext None ws (emit [EGot m c None] s1)) as (es & E & Hes). rewrite E. simpl. rewrite <- !(assoc_L (++)).
        eexists. split; [done|]. intros n' k' v'. rewrite !elem_of_app, !elem_of_list_singleton. intros [|[|Hin]]; [done|done|by apply Hes in Hin].
      * simpl. rewrite <- (assoc_L (++)). eexists. split; [done|]. intros n' k' v'. rewrite !elem_of_app, !elem_of_list_singleton. naive_solver.
    + exists [ERun id]. split; [done|]. intros ??? ?%elem_of_list_singleton; done.
Qed.

(** ** Where the checks are *)
Definition keyof (p : pc) : string := match p with Asked => md | Building _ => name end.
Definition pend (s : state) (st1 : list frame) (n : nat) (k : string) : Prop :=
  match last st1 with
  | None => status_of s = Going → on_top s n k
  | Some f => ∃ j c pr ws, f = FBuild j c pr ws ∧ ends j c ws = (n, k)
  end.
Definition pinfo (u : ustate) (n : nat) (p : pc) : Prop :=
  match p with Asked => True | Building v => EGot n md (Some v) ∈ trace (base u) ∧ cells u !! nd_id v = Some None end.
Definition at_frame (u : ustate) (i : nat) (p : pc) : Prop :=
  ∃ st1 n pr ws st2, stack (base u) = st1 ++ FBuild n check pr ws :: st2 ∧ length st2 = i ∧ pend (base u) st1 n (keyof p) ∧ pinfo u n p.
Definition uinv (u : ustate) : Prop :=
  (∀ i p, pcs u !! i = Some p → at_frame u i p) ∧
  (∀ n w, EBuilt n check w ∈ trace (base u) → ∃ v w', EGot n md (Some v) ∈ trace (base u) ∧ cells u !! nd_id v = Some (Some w')).

Lemma pend_nil s n k : pend s [] n k ↔ (status_of s = Going → on_top s n k).
Proof. done. Qed.
Lemma pend_snoc s st1 f n k : pend s (st1 ++ [f]) n k ↔ ∃ j c pr ws, f = FBuild j c pr ws ∧ ends j c ws = (n, k).
Proof. unfold pend. by rewrite last_snoc. Qed.
Lemma pend_cons s s' g st1 n k : st1 ≠ [] → pend s st1 n k → pend s' (g :: st1) n k.
Proof.
  intros Hne. destruct st1 as [|f st1 _] using rev_ind; [done|]. rewrite pend_snoc. rewrite app_comm_cons, pend_snoc. done.
Qed.
Lemma pend_tail s s' g st1 n k : st1 ≠ [] → pend s (g :: st1) n k → pend s' st1 n k.
Proof.
  intros Hne. destruct st1 as [|f st1 _] using rev_ind; [done|]. rewrite pend_snoc. rewrite app_comm_cons, pend_snoc. done.
Qed.
Lemma pend_same s s' st1 n k : st1 ≠ [] → pend s st1 n k → pend s' st1 n k.
Proof. intros Hne. destruct st1 as [|f st1 _] using rev_ind; [done|]. by rewrite !pend_snoc. Qed.

(** The control of a step, by what runs on top. *)
Definition runs_check (s : state) (n : nat) (st : list frame) : Prop := ∃ pr ws, stack s = FBuild n check pr ws :: st.

Lemma control_other u l p c : control check md name u l = Some (p, c) → (∀ n st, ¬ runs_check (base u) n st) →
  p = pcs u ∧ (∀ i x, cells u !! i = Some x → c !! i = Some x).
Proof.
  intros H Hn. unfold control in H. destruct (stack (base u)) as [|[n k pr ws| |] st] eqn:E; [by injection H as <- <-| |by injection H as <- <-|by injection H as <- <-].
  case_bool_decide as Hk. { exfalso. subst k. apply (Hn n st). unfold runs_check. eauto. }
  case_bool_decide as Hk2; [|by injection H as <- <-].
  destruct l as [| | | |[v|]| |]; try done. destruct (cells u !! nd_id v) eqn:Ec; [done|]. injection H as <- <-.
  split; [done|]. intros i x Hx. rewrite lookup_insert_ne; [done|]. congruence.
Qed.
Lemma control_check u l p c n st : control check md name u l = Some (p, c) → runs_check (base u) n st →
  (pcs u !! length st = None ∧ l = LGet n md true ∧ p = <[length st := Asked]> (pcs u) ∧ c = cells u) ∨
  (∃ v, pcs u !! length st = Some Asked ∧ result (base u) = Some v ∧ cells u !! nd_id v = Some None ∧ l = LGet n name true ∧
     p = <[length st := Building v]> (pcs u) ∧ c = cells u) ∨
  (∃ v w, pcs u !! length st = Some (Building v) ∧ result (base u) = Some w ∧ l = LReturn (Some w) ∧ p = delete (length st) (pcs u) ∧ c = <[nd_id v := Some w]> (cells u)) ∨
  (l = LReturn None ∧ p = delete (length st) (pcs u) ∧ c = cells u).
Proof.
  intros H (pr & ws & E). unfold control in H. rewrite E in H. rewrite bool_decide_true in H by done.
  assert (Hget : ∀ k, is_get l n k = true → l = LGet n k true).
  { intros k Hg. destruct l; try done. simpl in Hg. apply bool_decide_eq_true in Hg. naive_solver. }
  assert (Hret : ∀ r, is_return l r = true → l = LReturn r).
  { intros r Hg. destruct l; try done. simpl in Hg. apply bool_decide_eq_true in Hg. naive_solver. }
  destruct (pcs u !! length st) as [[|v]|] eqn:Ep.
  - destruct (result (base u)) as [v|] eqn:Er.
    + destruct (cells u !! nd_id v) as [[x|]|] eqn:Ec.
      * destruct (is_return l None) eqn:El; [|done]. injection H as <- <-. right. right. right. auto.
      * destruct (is_get l n name) eqn:El; [|done]. injection H as <- <-. right. left. exists v. split_and!; auto.
      * destruct (is_return l None) eqn:El; [|done]. injection H as <- <-. right. right. right. auto.
    + destruct (is_return l None) eqn:El; [|done]. injection H as <- <-. right. right. right. auto.
  - destruct (result (base u)) as [w|] eqn:Er.
    + destruct (is_return l (Some w)) eqn:El; [|done]. injection H as <- <-. right. right. left. exists v, w. split_and!; auto.
    + destruct (is_return l None) eqn:El; [|done]. injection H as <- <-. right. right. right. auto.
  - destruct (is_get l n md) eqn:El; [|done]. injection H as <- <-. left. auto.
Qed.

Lemma split_pos {A} (l1 l2 l1' l2' : list A) x y : l1 ++ x :: l2 = l1' ++ y :: l2' → length l2 = length l2' → l1 = l1' ∧ x = y ∧ l2 = l2'.
Proof.
  intros H Hl. assert (length l1 = length l1') as Hl1. { apply (f_equal length) in H. rewrite !app_length in H. simpl in H. lia. }
  apply app_inj_1 in H as [-> H]; [|done]. by injection H as -> ->.
Qed.
Lemma building_app st1 st2 : omap (λ f, match f with FBuild n k _ _ => Some (n, k) | _ => None end) (st1 ++ st2) =
  omap (λ f, match f with FBuild n k _ _ => Some (n, k) | _ => None end) st1 ++ omap (λ f, match f with FBuild n k _ _ => Some (n, k) | _ => None end) st2.
Proof. apply omap_app. Qed.
(** Two running checks are one. *)
Lemma one_check s st1 n1 pr1 ws1 st2 st1' n2 pr2 ws2 st2' :
  NoDup (building s) → ((n1, check) ∈ building s → (n2, check) ∈ building s → n1 = n2) →
  stack s = st1 ++ FBuild n1 check pr1 ws1 :: st2 → stack s = st1' ++ FBuild n2 check pr2 ws2 :: st2' → length st2 = length st2'.
Proof.
  intros Hnd Hs E1 E2.
  assert (n1 = n2) as <-.
  { apply Hs; unfold building; apply elem_of_list_omap; [exists (FBuild n1 check pr1 ws1)|exists (FBuild n2 check pr2 ws2)]; split; try done; [rewrite E1|rewrite E2]; set_solver. }
  clear Hs. unfold building in Hnd. rewrite E1 in E2, Hnd. clear E1. revert st1' E2 Hnd.
  induction st1 as [|f st1 IH]; intros [|g st1'] E2 Hnd; simpl in *.
  - by injection E2 as _ _ <-.
  - injection E2 as <- ->. simpl in Hnd. rewrite building_app in Hnd. simpl in Hnd. apply list.NoDup_cons in Hnd as [Hn _]. exfalso. apply Hn. set_solver.
  - injection E2 as -> <-. rewrite building_app in Hnd. simpl in Hnd. apply list.NoDup_cons in Hnd as [Hn _]. exfalso. apply Hn. set_solver.
  - injection E2 as <- E2. apply (IH st1' E2). destruct f; simpl in Hnd; [by apply list.NoDup_cons in Hnd as [_ ?]|done|done].
Qed.

Lemma uinv_step u l u' : wf getdef (base u) → NoDup (building (base u)) →
  (∀ n1 n2, (n1, check) ∈ building (base u) → (n2, check) ∈ building (base u) → n1 = n2) →
  uinv u → ustep u l = Some u' → uinv u'.
Proof.
  intros Hw Hnd Hsolo [H1 H2] Hst. pose proof (ustep_base _ _ _ Hst) as Hb.
  unfold ustep in Hst. destruct (control check md name u l) as [[p c]|] eqn:Hc; [|done]. rewrite Hb in Hst. injection Hst as <-.
  cbn [base pcs cells] in *. set (s' := base u') in *. clearbody s'. clear u'. set (s := base u) in *.
  assert (∃ es, trace s' = trace s ++ es ∧ ∀ n k v, EBuilt n k v ∈ es → ∃ pr ws st, stack s = FBuild n k pr ws :: st ∧ l = LReturn (Some v)) as (es & Htr & Hes).
  { destruct l as [n k e|n k v|n cn acc|front|r|ok|].
    - destruct (get_shape _ _ _ _ _ Hw Hb) as [(es & E & Hn) _]. exists es. split; [done|]. intros ??? Hin. by apply Hn in Hin.
    - destruct (other_shape _ _ _ Hw Hb) as [(es & E & Hn) _]; [done|done|]. exists es. split; [done|]. intros ??? Hin. by apply Hn in Hin.
    - destruct (other_shape _ _ _ Hw Hb) as [(es & E & Hn) _]; [done|done|]. exists es. split; [done|]. intros ??? Hin. by apply Hn in Hin.
    - destruct (other_shape _ _ _ Hw Hb) as [(es & E & Hn) _]; [done|done|]. exists es. split; [done|]. intros ??? Hin. by apply Hn in Hin.
    - destruct (return_shape _ _ _ Hb) as (j & k & pr & ws & st & E & (es & Et & Hn) & _). exists es. split; [done|].
      intros n' k' v Hin. apply Hn in Hin as (-> & -> & ->). eauto 10.
    - destruct (other_shape _ _ _ Hw Hb) as [(es & E & Hn) _]; [done|done|]. exists es. split; [done|]. intros ??? Hin. by apply Hn in Hin.
    - destruct (other_shape _ _ _ Hw Hb) as [(es & E & Hn) _]; [done|done|]. exists es. split; [done|]. intros ??? Hin. by apply Hn in Hin. }
  assert (Hmono : ∀ e, e ∈ trace s → e ∈ trace s') by (intros e He; rewrite Htr; apply elem_of_app; by left).
  assert ((∃ n st, runs_check s n st) ∨ (∀ n st, ¬ runs_check s n st)) as Hdec.
  { unfold runs_check. destruct (stack s) as [|[n k pr ws| |] st]; [right; naive_solver| |right; naive_solver|right; naive_solver].
    destruct (decide (k = check)) as [->|Hk]; [left; eauto 10|right]. intros n' st' (pr' & ws' & E). naive_solver. }
  (* what is not on top keeps its place *)
  assert (Hkeep : ∀ i q st1 n pr ws st2, st1 ≠ [] → stack s = st1 ++ FBuild n check pr ws :: st2 → length st2 = i → pend s st1 n (keyof q) →
     ∃ st1', stack s' = st1' ++ FBuild n check pr ws :: st2 ∧ pend s' st1' n (keyof q)).
  { intros i q st1 n pr ws st2 Hne E Hi Hp. destruct st1 as [|f st1]; [done|].
    destruct l as [n' k e|n' k v|n' cn acc|front|r|ok|].
    - destruct (get_shape _ _ _ _ _ Hw Hb) as [_ [[Es _]|(j & c' & pr' & ws' & Es & _)]]; rewrite E in Es.
      + exists (f :: st1). split; [done|]. by eapply pend_same.
      + exists (FBuild j c' pr' ws' :: f :: st1). split; [done|]. by eapply pend_cons.
    - destruct (other_shape _ _ _ Hw Hb) as [_ [Es|[(id & Es)|Es]]]; [done|done| | |]; rewrite E in Es.
      + exists (f :: st1). split; [done|]. by eapply pend_same.
      + injection Es as -> Es. exists st1. split; [done|]. destruct st1; [destruct Hp as (? & ? & ? & ? & ? & _); done|]. by eapply pend_tail.
      + done.
    - destruct (other_shape _ _ _ Hw Hb) as [_ [Es|[(id & Es)|Es]]]; [done|done| | |]; rewrite E in Es.
      + exists (f :: st1). split; [done|]. by eapply pend_same.
      + injection Es as -> Es. exists st1. split; [done|]. destruct st1; [destruct Hp as (? & ? & ? & ? & ? & _); done|]. by eapply pend_tail.
      + done.
    - destruct (other_shape _ _ _ Hw Hb) as [_ [Es|[(id & Es)|Es]]]; [done|done| | |]; rewrite E in Es.
      + exists (f :: st1). split; [done|]. by eapply pend_same.
      + injection Es as -> Es. exists st1. split; [done|]. destruct st1; [destruct Hp as (? & ? & ? & ? & ? & _); done|]. by eapply pend_tail.
      + done.
    - destruct (return_shape _ _ _ Hb) as (j & k & pr' & ws' & st & Es & _ & Hs'). rewrite E in Es. injection Es as -> Es.
      destruct Hs' as [[Es' Ht]|(id & Es')].
      + exists st1. split; [by rewrite Es'|]. destruct st1 as [|f1 st1]; [|by eapply pend_tail].
        destruct Hp as (j1 & c1 & pr1 & ws1 & [= <- <- <- <-] & He). rewrite pend_nil. intros _. rewrite He in Ht. apply Ht. rewrite <- Es. simpl. tauto.
      + rewrite <- Es in Es'. destruct st1 as [|f1 st1]; [done|]. injection Es' as -> Es'. exists st1. split; [done|].
        destruct st1 as [|f2 st1]; [|eapply (pend_tail s s'); [done|]; by eapply (pend_tail s s)].
        destruct Hp as (j1 & c1 & pr1 & ws1 & He & _). simpl in He. done.
    - destruct (other_shape _ _ _ Hw Hb) as [_ [Es|[(id & Es)|Es]]]; [done|done| | |]; rewrite E in Es.
      + exists (f :: st1). split; [done|]. by eapply pend_same.
      + injection Es as -> Es. exists st1. split; [done|]. destruct st1; [destruct Hp as (? & ? & ? & ? & ? & _); done|]. by eapply pend_tail.
      + done.
    - destruct (other_shape _ _ _ Hw Hb) as [_ [Es|[(id & Es)|Es]]]; [done|done| | |]; rewrite E in Es.
      + exists (f :: st1). split; [done|]. by eapply pend_same.
      + injection Es as -> Es. exists st1. split; [done|]. destruct st1; [destruct Hp as (? & ? & ? & ? & ? & _); done|]. by eapply pend_tail.
      + done. }
  (* the running check asks for something *)
  assert (Htop : ∀ n st k q, runs_check s n st → l = LGet n k true → k = keyof q →
     ∃ st1' pr ws, stack s' = st1' ++ FBuild n check pr ws :: st ∧ pend s' st1' n (keyof q)).
  { intros n st k q (pr & ws & E) -> ->. destruct (get_shape _ _ _ _ _ Hw Hb) as [_ [[Es Ht]|(j & c' & pr' & ws' & Es & Ht)]]; rewrite E in Es.
    - exists [], pr, ws. split; [done|]. by rewrite pend_nil.
    - exists [FBuild j c' pr' ws'], pr, ws. split; [done|]. rewrite <- (app_nil_l [FBuild j c' pr' ws']), pend_snoc. eauto 10. }
  destruct Hdec as [(n & st & Hrc)|Hno].
  - (* a check runs *)
    assert (Hframe : ∀ i q, pcs u !! i = Some q → i ≠ length st → ∃ st1 n' pr ws st2, st1 ≠ [] ∧ stack s = st1 ++ FBuild n' check pr ws :: st2 ∧ length st2 = i ∧ pend s st1 n' (keyof q) ∧ pinfo u n' q).
    { intros i q Hq Hi. destruct (H1 _ _ Hq) as (st1 & n' & pr & ws & st2 & E & El & Hp & Hpi). exists st1, n', pr, ws, st2. split; [|done].
      intros ->. destruct Hrc as (pr' & ws' & E'). unfold s in E'. rewrite E in E'. simpl in E'. injection E' as _ _ _ ->. done. }
    assert (Hother : ∀ i q, pcs u !! i = Some q → i ≠ length st → False).
    { intros i q Hq Hi. destruct (Hframe _ _ Hq Hi) as (st1 & n' & pr & ws & st2 & _ & E & El & _). destruct Hrc as (pr' & ws' & E').
      apply Hi. rewrite <- El. eapply (one_check s st1 n' pr ws st2 [] n pr' ws' st); [done|apply Hsolo|done|done]. }
    destruct (control_check _ _ _ _ _ _ Hc Hrc) as [(Ep & -> & -> & ->)|[(v & Ep & Er & Ec & -> & -> & ->)|[(v & w & Ep & Er & -> & -> & ->)|(-> & -> & ->)]]].
    + split.
      * intros i q. cbn [pcs]. destruct (decide (i = length st)) as [->|Hi]; [|rewrite lookup_insert_ne by done; intros Hq; by destruct (Hother _ _ Hq)].
        rewrite lookup_insert. intros [= <-]. destruct (Htop n st md Asked Hrc eq_refl eq_refl) as (st1' & pr & ws & E & Hp).
        exists st1', n, pr, ws, st. split_and!; try done.
      * intros n' w Hin. cbn [base cells] in *. rewrite Htr in Hin. apply elem_of_app in Hin as [Hin|Hin].
        -- destruct (H2 _ _ Hin) as (v & w' & G1 & G2). exists v, w'. auto.
        -- destruct (Hes _ _ _ Hin) as (? & ? & ? & _ & ?). done.
    + split.
      * intros i q. cbn [pcs]. destruct (decide (i = length st)) as [->|Hi]; [|rewrite lookup_insert_ne by done; intros Hq; by destruct (Hother _ _ Hq)].
        rewrite lookup_insert. intros [= <-]. destruct (Htop n st name (Building v) Hrc eq_refl eq_refl) as (st1' & pr & ws & E & Hp).
        exists st1', n, pr, ws, st. split_and!; try done. cbn [base cells]. split; [|done]. apply Hmono.
        destruct (H1 _ _ Ep) as (st1 & n2 & pr2 & ws2 & st2 & E2 & El & Hp2 & _). destruct Hrc as (pr' & ws' & E').
        unfold s in E'. rewrite E2 in E'. change (FBuild n check pr' ws' :: st) with ([] ++ FBuild n check pr' ws' :: st) in E'.
        apply split_pos in E' as (-> & [= -> -> ->] & ->); [|done]. rewrite pend_nil in Hp2.
        assert (status_of (base u) = Going) as Hgo. { unfold step in Hb. fold s. by destruct (status_of s). }
        destruct (Hp2 Hgo) as (r & Hl). unfold result in Er. unfold s in Er. rewrite Hl in Er. subst r. fold s in Hl.
        apply last_Some in Hl as (t & Et). rewrite Et. simpl. set_solver.
      * intros n' w Hin. cbn [base cells] in *. rewrite Htr in Hin. apply elem_of_app in Hin as [Hin|Hin].
        -- destruct (H2 _ _ Hin) as (v' & w' & G1 & G2). exists v', w'. auto.
        -- destruct (Hes _ _ _ Hin) as (? & ? & ? & _ & ?). done.
    + split.
      * intros i q. cbn [pcs]. rewrite lookup_delete_Some. intros [Hi Hq]. by destruct (Hother _ _ Hq (not_eq_sym Hi)).
      * intros n' w' Hin. cbn [base cells] in *. rewrite Htr in Hin. apply elem_of_app in Hin as [Hin|Hin].
        -- destruct (H2 _ _ Hin) as (v' & w1 & G1 & G2). destruct (decide (nd_id v' = nd_id v)) as [E|Hnv].
           ++ exists v', w. rewrite E, lookup_insert. auto.
           ++ exists v', w1. rewrite lookup_insert_ne by done. auto.
        -- destruct (Hes _ _ _ Hin) as (? & ? & ? & E' & [= ->]). destruct (H1 _ _ Ep) as (st1 & n2 & pr2 & ws2 & st2 & E2 & El & Hp2 & Hpi).
           destruct Hrc as (pr' & ws'' & E3). rewrite E3 in E'. injection E' as -> _ _ _. unfold s in E3. rewrite E2 in E3.
           change (FBuild n' check pr' ws'' :: st) with ([] ++ FBuild n' check pr' ws'' :: st) in E3. apply split_pos in E3 as (-> & [= -> -> ->] & ->); [|done].
           destruct Hpi as [G1 G2]. exists v, w'. rewrite lookup_insert. auto.
    + split.
      * intros i q. cbn [pcs]. rewrite lookup_delete_Some. intros [Hi Hq]. by destruct (Hother _ _ Hq (not_eq_sym Hi)).
      * intros n' w' Hin. cbn [base cells] in *. rewrite Htr in Hin. apply elem_of_app in Hin as [Hin|Hin].
        -- destruct (H2 _ _ Hin) as (v' & w1 & G1 & G2). exists v', w1. auto.
        -- destruct (Hes _ _ _ Hin) as (? & ? & ? & _ & ?). done.
  - destruct (control_other _ _ _ _ Hc Hno) as [-> Hcells]. split.
    + intros i q Hq. cbn [pcs] in Hq. destruct (H1 _ _ Hq) as (st1 & n' & pr & ws & st2 & E & El & Hp & Hpi).
      assert (st1 ≠ []) as Hne. { intros ->. apply (Hno n' st2). unfold runs_check. eauto. }
      destruct (Hkeep _ q _ _ _ _ _ Hne E El Hp) as (st1' & E' & Hp'). exists st1', n', pr, ws, st2. split_and!; try done.
      destruct q as [|v]; [done|]. destruct Hpi as [G1 G2]. cbn [pinfo base cells]. auto.
    + intros n' w' Hin. cbn [base cells] in *. rewrite Htr in Hin. apply elem_of_app in Hin as [Hin|Hin].
      * destruct (H2 _ _ Hin) as (v' & w1 & G1 & G2). exists v', w1. auto.
      * destruct (Hes _ _ _ Hin) as (pr & ws & st & E & _). exfalso. apply (Hno n' st). unfold runs_check. eauto.
Qed.

Lemma uinv_init reqs : uinv (uinit reqs).
Proof.
  split; [intros i p Hp; simpl in Hp; by rewrite lookup_empty in Hp|]. intros n w Hin. simpl in Hin. exfalso.
  unfold init in Hin. assert (∀ s, (∀ n k v, EBuilt n k v ∉ trace s) → ∀ n k v, EBuilt n k v ∉ trace (foldl (λ s name, defer true (DRequest name) s) s reqs)) as Hg.
  { clear. induction reqs as [|r reqs IH]; intros s Hs; [done|]. simpl. apply IH. intros n k v. unfold defer. simpl. rewrite elem_of_app, elem_of_list_singleton. intros [?|?]; [by eapply Hs|done]. }
  eapply Hg, Hin. simpl. intros ??? ?%elem_of_nil. done.
Qed.
Lemma acyclic_prefix reqs ls1 ls2 : acyclic getdef reqs (ls1 ++ ls2) → acyclic getdef reqs ls1.
Proof. intros H l1 l2 s -> Hr. apply (H l1 (l2 ++ ls2)); [by rewrite (assoc_L (++))|done]. Qed.
Lemma solo_prefix reqs ls1 ls2 : solo getdef check reqs (ls1 ++ ls2) → solo getdef check reqs ls1.
Proof. intros H l1 l2 s n1 n2 -> Hr. apply (H l1 (l2 ++ ls2)); [by rewrite (assoc_L (++))|done]. Qed.
Lemma uinv_run reqs ls u : urun (uinit reqs) ls = Some u → acyclic getdef reqs ls → solo getdef check reqs ls → uinv u.
Proof.
  revert u. induction ls as [|l ls IH] using rev_ind; intros u.
  - intros [= <-] _ _. apply uinv_init.
  - intros (u1 & Hr & Hs)%urun_snoc Hac Hso. pose proof (urun_base _ _ _ Hr) as Hrb. cbn [uinit base] in Hrb.
    eapply uinv_step; [by eapply wf_run|by eapply (Hac ls [l])|intros n1 n2; by eapply (Hso ls [l])| |exact Hs].
    apply IH; [done|by eapply acyclic_prefix|by eapply solo_prefix].
Qed.
Lemma trace_step s l s' : step getdef s l = Some s' → wf getdef s → ∃ es, trace s' = trace s ++ es.
Proof.
  intros Hb Hw. destruct l as [n k e|n k v|n cn acc|front|r|ok|].
  - destruct (get_shape _ _ _ _ _ Hw Hb) as [(es & E & _) _]. eauto.
  - destruct (other_shape _ _ _ Hw Hb) as [(es & E & _) _]; [done|done|]. eauto.
  - destruct (other_shape _ _ _ Hw Hb) as [(es & E & _) _]; [done|done|]. eauto.
  - destruct (other_shape _ _ _ Hw Hb) as [(es & E & _) _]; [done|done|]. eauto.
  - destruct (return_shape _ _ _ Hb) as (j & k & pr & ws & st & E & (es & Et & _) & _). eauto.
  - destruct (other_shape _ _ _ Hw Hb) as [(es & E & _) _]; [done|done|]. eauto.
  - destruct (other_shape _ _ _ Hw Hb) as [(es & E & _) _]; [done|done|]. eauto.
Qed.
(** The step that emitted an event. *)
Lemma emitted reqs ls u i e : urun (uinit reqs) ls = Some u → trace (base u) !! i = Some e → length (trace (init reqs)) ≤ i →
  ∃ ls1 l ls2 u1 u2, ls = ls1 ++ l :: ls2 ∧ urun (uinit reqs) ls1 = Some u1 ∧ ustep u1 l = Some u2 ∧
    length (trace (base u1)) ≤ i ∧ trace (base u2) !! i = Some e ∧ (∃ t, trace (base u) = trace (base u2) ++ t).
Proof.
  revert u. induction ls as [|l ls IH] using rev_ind; intros u.
  - intros [= <-] Hi Hl. simpl in *. apply lookup_lt_Some in Hi. lia.
  - intros (u1 & Hr & Hs)%urun_snoc Hi Hl. pose proof (urun_base _ _ _ Hr) as Hrb. cbn [uinit base] in Hrb.
    destruct (trace_step _ _ _ (ustep_base _ _ _ Hs)) as (es & Et); [by eapply wf_run|].
    destruct (decide (i < length (trace (base u1)))) as [Hlt|Hge].
    + destruct (IH u1 Hr) as (ls1 & l' & ls2 & u2 & u3 & -> & G1 & G2 & G3 & G4 & (t & G5)); [by rewrite Et, lookup_app_l in Hi by done|done|].
      exists ls1, l', (ls2 ++ [l]), u2, u3. split; [by rewrite <- (assoc_L (++))|]. split_and!; try done. rewrite Et, G5, <- (assoc_L (++)). eauto.
    + exists ls, l, [], u1, u. split_and!; try done; [lia|]. exists []. by rewrite app_nil_r.
Qed.
Lemma init_len reqs e i n k v : trace (init reqs) !! i = Some e → e ≠ EBuilt n k v.
Proof. intros Hi ->. destruct (uinv_init reqs) as [_ _]. assert (EBuilt n k v ∈ trace (init reqs)) as Hin by (by eapply elem_of_list_lookup_2).
  revert Hin. unfold init. assert (∀ s, EBuilt n k v ∉ trace s → EBuilt n k v ∉ trace (foldl (λ s name, defer true (DRequest name) s) s reqs)) as Hg.
  { clear. induction reqs as [|r reqs IH]; intros s Hs; [done|]. simpl. apply IH. unfold defer. simpl. rewrite elem_of_app, elem_of_list_singleton. intros [?|?]; done. }
  apply Hg. simpl. apply not_elem_of_nil.
Qed.
Lemma built_after_init reqs ls u i n k v : urun (uinit reqs) ls = Some u → trace (base u) !! i = Some (EBuilt n k v) → length (trace (init reqs)) ≤ i.
Proof.
  intros Hr Hi. destruct (decide (length (trace (init reqs)) ≤ i)) as [|Hlt]; [done|exfalso].
  assert (∃ t, trace (base u) = trace (init reqs) ++ t) as (t & Et).
  { clear Hi. revert u Hr. induction ls as [|l ls IH] using rev_ind; intros u.
    - intros [= <-]. exists []. by rewrite app_nil_r.
    - intros (u1 & Hr & Hs)%urun_snoc. destruct (IH _ Hr) as (t & Et). pose proof (urun_base _ _ _ Hr) as Hrb. cbn [uinit base] in Hrb.
      destruct (trace_step _ _ _ (ustep_base _ _ _ Hs)) as (es & Et'); [by eapply wf_run|]. rewrite Et', Et, <- (assoc_L (++)). eauto. }
  rewrite Et, lookup_app_l in Hi by lia. by eapply init_len.
Qed.

Theorem unique reqs ls u i1 i2 n1 n2 w1 w2 j : urun (uinit reqs) ls = Some u → acyclic getdef reqs ls → solo getdef check reqs ls → no_put ls →
  trace (base u) !! i1 = Some (EBuilt n1 check w1) → trace (base u) !! i2 = Some (EBuilt n2 check w2) →
  home getdef (nss (base u)) n1 md j md → home getdef (nss (base u)) n2 md j md → i1 = i2.
Proof.
  intros Hr Hac Hso Hnp Ha Hb Hh1 Hh2. pose proof (urun_base _ _ _ Hr) as Hrb. cbn [uinit base] in Hrb.
  assert (∀ i1 i2 n1 n2 w1 w2, trace (base u) !! i1 = Some (EBuilt n1 check w1) → trace (base u) !! i2 = Some (EBuilt n2 check w2) →
    home getdef (nss (base u)) n1 md j md → home getdef (nss (base u)) n2 md j md → i1 < i2 → False) as Hgen.
  2:{ destruct (lt_eq_lt_dec i1 i2) as [[Hlt|?]|Hlt]; [|done|]; exfalso; [exact (Hgen _ _ _ _ _ _ Ha Hb Hh1 Hh2 Hlt)|exact (Hgen _ _ _ _ _ _ Hb Ha Hh2 Hh1 Hlt)]. }
  clear i1 i2 n1 n2 w1 w2 Ha Hb Hh1 Hh2. intros i1 i2 n1 n2 w1 w2 Ha Hb Hh1 Hh2 Hlt.
  destruct (emitted _ _ _ _ _ Hr Hb) as (ls1 & l & ls2 & u1 & u2 & -> & Hr1 & Hs & Hlen & Hb2 & (t & Et)); [by eapply built_after_init|].
  pose proof (urun_base _ _ _ Hr1) as Hrb1. cbn [uinit base] in Hrb1.
  assert (uinv u1) as [H1 H2]. { eapply uinv_run; [done|by eapply acyclic_prefix|by eapply solo_prefix]. }
  destruct (trace_step _ _ _ (ustep_base _ _ _ Hs)) as (es & Es); [by eapply wf_run|].
  (* what the step builds *)
  assert (∀ n k w, EBuilt n k w ∈ es → ∃ pr ws st, stack (base u1) = FBuild n k pr ws :: st ∧ l = LReturn (Some w)) as Hbuilt.
  { intros n k w Hin. pose proof (ustep_base _ _ _ Hs) as Hst. assert (wf getdef (base u1)) as Hwf by (by eapply wf_run).
    destruct l as [n' k' e|n' k' v|n' cn acc|front|r|ok|].
    - destruct (get_shape _ _ _ _ _ Hwf Hst) as [(es' & E & Hn) _]. rewrite Es in E. apply app_inv_head in E as <-. by apply Hn in Hin.
    - destruct (other_shape _ _ _ Hwf Hst) as [(es' & E & Hn) _]; [done|done|]. rewrite Es in E. apply app_inv_head in E as <-. by apply Hn in Hin.
    - destruct (other_shape _ _ _ Hwf Hst) as [(es' & E & Hn) _]; [done|done|]. rewrite Es in E. apply app_inv_head in E as <-. by apply Hn in Hin.
    - destruct (other_shape _ _ _ Hwf Hst) as [(es' & E & Hn) _]; [done|done|]. rewrite Es in E. apply app_inv_head in E as <-. by apply Hn in Hin.
    - destruct (return_shape _ _ _ Hst) as (j' & c' & pr & ws & st & E & (es' & E' & Hn) & _). rewrite Es in E'. apply app_inv_head in E' as <-.
      apply Hn in Hin as (-> & -> & ->). eauto 10.
    - destruct (other_shape _ _ _ Hwf Hst) as [(es' & E & Hn) _]; [done|done|]. rewrite Es in E. apply app_inv_head in E as <-. by apply Hn in Hin.
    - destruct (other_shape _ _ _ Hwf Hst) as [(es' & E & Hn) _]; [done|done|]. rewrite Es in E. apply app_inv_head in E as <-. by apply Hn in Hin. }
  assert (EBuilt n2 check w2 ∈ es) as Hin2.
  { rewrite Es, lookup_app_r in Hb2 by done. by eapply elem_of_list_lookup_2. }
  destruct (Hbuilt _ _ _ Hin2) as (pr & ws & st & Etop & Hl).
  (* the earlier one *)
  assert (i1 < length (trace (base u1))) as Hi1.
  { destruct (decide (i1 < length (trace (base u1)))) as [|Hge]; [done|exfalso].
    assert (i2 < length (trace (base u2))) as Hi2 by (by eapply lookup_lt_Some).
    assert (EBuilt n1 check w1 ∈ es) as Hin1.
    { pose proof Ha as Ha'. rewrite Et, lookup_app_l in Ha' by lia. rewrite Es, lookup_app_r in Ha' by lia. by eapply elem_of_list_lookup_2. }
    destruct (Hbuilt _ _ _ Hin1) as (? & ? & ? & Etop' & _). rewrite Etop in Etop'. injection Etop' as <- _ _ _.
    assert (i1 = i2); [|lia]. eapply (built_once getdef); [done|exact Hrb|done|done|exact Ha|exact Hb]. }
  assert (EBuilt n1 check w1 ∈ trace (base u1)) as Ha1.
  { pose proof Ha as Ha'. rewrite Et, Es, <- (assoc_L (++)), lookup_app_l in Ha' by done. by eapply elem_of_list_lookup_2. }
  destruct (H2 _ _ Ha1) as (v1 & w' & Hg1 & Hc1).
  assert (runs_check (base u1) n2 st) as Hrc by (unfold runs_check; eauto).
  unfold ustep in Hs. destruct (control check md name u1 l) as [[p c]|] eqn:Hc; [|done].
  destruct (control_check _ _ _ _ _ _ Hc Hrc) as [(_ & -> & _)|[(? & _ & _ & _ & -> & _)|[(v2 & w & Ep & _)|(-> & _)]]]; try done.
  destruct (H1 _ _ Ep) as (st1 & n' & pr' & ws' & st2 & E & El & _ & Hg2 & Hc2).
  rewrite Etop in E. change (FBuild n2 check pr ws :: st) with ([] ++ FBuild n2 check pr ws :: st) in E. apply split_pos in E as (<- & [= <- <- <-] & <-); [|done].
  assert (v1 = v2) as ->; [|congruence].
  assert (∀ e, e ∈ trace (base u1) → e ∈ trace (base u)) as Hsub. { intros e He. rewrite Et, Es. rewrite !elem_of_app. auto. }
  eapply (got_same getdef); [done|exact Hrb|done|done|apply Hsub, Hg1|apply Hsub, Hg2|done|done].
Qed.

(** Getting the node through the check, or an alias of it. *)
Theorem unique_get reqs ls u n1 n2 a1 a2 w1 w2 j j1 j2 : urun (uinit reqs) ls = Some u → acyclic getdef reqs ls → solo getdef check reqs ls → no_put ls →
  EGot n1 a1 (Some w1) ∈ trace (base u) → EGot n2 a2 (Some w2) ∈ trace (base u) →
  home getdef (nss (base u)) n1 a1 j1 check → home getdef (nss (base u)) n2 a2 j2 check →
  home getdef (nss (base u)) j1 md j md → home getdef (nss (base u)) j2 md j md → j1 = j2 ∧ w1 = w2.
Proof.
  intros Hr Hac Hso Hnp Hg1 Hg2 Hh1 Hh2 Hm1 Hm2. pose proof (urun_base _ _ _ Hr) as Hrb. cbn [uinit base] in Hrb.
  destruct (got_from_home getdef _ _ _ _ _ _ Hcan Hrb Hac Hnp Hg1) as (k1 & c1 & Hk1 & Hb1). destruct (home_fun _ _ _ _ _ _ _ _ Hh1 Hk1) as [<- <-].
  destruct (got_from_home getdef _ _ _ _ _ _ Hcan Hrb Hac Hnp Hg2) as (k2 & c2 & Hk2 & Hb2). destruct (home_fun _ _ _ _ _ _ _ _ Hh2 Hk2) as [<- <-].
  apply elem_of_list_lookup in Hb1 as (i1 & Hi1), Hb2 as (i2 & Hi2).
  assert (i1 = i2) as ->. { eapply unique; [done|done|done|done|exact Hi1|exact Hi2|exact Hm1|exact Hm2]. }
  rewrite Hi1 in Hi2. by injection Hi2 as <- <-.
Qed.

(** ** The check does not fail without reason *)
Definition uinv2 (u : ustate) : Prop :=
  (∀ i w, cells u !! i = Some (Some w) → ∃ n v w', nd_id v = i ∧ EBuilt n check w' ∈ trace (base u) ∧ EGot n md (Some v) ∈ trace (base u)) ∧
  (∀ n v, EBuilt n md v ∈ trace (base u) → is_Some (cells u !! nd_id v)).
Lemma return_built s v s' j c pr ws st : step getdef s (LReturn (Some v)) = Some s' → stack s = FBuild j c pr ws :: st → EBuilt j c v ∈ trace s'.
Proof.
  unfold step. intros H E. destruct (status_of s); try done. rewrite E in H. injection H as <-. unfold finish_build.
  set (s1 := emit [EBuilt j c v] (set_stack st s)).
  assert (EBuilt j c v ∈ trace s1) as H1 by (unfold s1; simpl; set_solver).
  match goal with |- context [answer _ ws ?x] => set (s3 := x) end.
  destruct (answer_ext (Some v) ws s3) as (es & -> & _). apply elem_of_app. left. unfold s3. cbn [emit trace alter_ns]. apply elem_of_app. left.
  destruct (is_added s1 j (nd_name v)); [done|]. destruct pr; [done|]. simpl. apply elem_of_app. by left.
Qed.
Lemma uinv2_step u l u' : wf getdef (base u) → uinv u → uinv2 u → ustep u l = Some u' → uinv2 u'.
Proof.
  intros Hw [H1 H2] [H3 H4] Hst. pose proof (ustep_base _ _ _ Hst) as Hb.
  destruct (trace_step _ _ _ Hb Hw) as (es & Htr).
  assert (Hmono : ∀ e, e ∈ trace (base u) → e ∈ trace (base u')) by (intros e He; rewrite Htr; apply elem_of_app; by left).
  assert (Hes : ∀ n k w, EBuilt n k w ∈ es → ∃ pr ws st, stack (base u) = FBuild n k pr ws :: st ∧ l = LReturn (Some w)).
  { intros n k w Hin. destruct l as [n' k' e|n' k' v|n' cn acc|front|r|ok|].
    - destruct (get_shape _ _ _ _ _ Hw Hb) as [(es' & E & Hn) _]. rewrite Htr in E. apply app_inv_head in E as <-. by apply Hn in Hin.
    - destruct (other_shape _ _ _ Hw Hb) as [(es' & E & Hn) _]; [done|done|]. rewrite Htr in E. apply app_inv_head in E as <-. by apply Hn in Hin.
    - destruct (other_shape _ _ _ Hw Hb) as [(es' & E & Hn) _]; [done|done|]. rewrite Htr in E. apply app_inv_head in E as <-. by apply Hn in Hin.
    - destruct (other_shape _ _ _ Hw Hb) as [(es' & E & Hn) _]; [done|done|]. rewrite Htr in E. apply app_inv_head in E as <-. by apply Hn in Hin.
    - destruct (return_shape _ _ _ Hb) as (j' & c' & pr & ws & st & E & (es' & E' & Hn) & _). rewrite Htr in E'. apply app_inv_head in E' as <-.
      pose proof (Hn _ _ _ Hin) as (E1 & E2 & E3). subst. eauto 10.
    - destruct (other_shape _ _ _ Hw Hb) as [(es' & E & Hn) _]; [done|done|]. rewrite Htr in E. apply app_inv_head in E as <-. by apply Hn in Hin.
    - destruct (other_shape _ _ _ Hw Hb) as [(es' & E & Hn) _]; [done|done|]. rewrite Htr in E. apply app_inv_head in E as <-. by apply Hn in Hin. }
  unfold ustep in Hst. destruct (control check md name u l) as [[p c]|] eqn:Hc; [|done]. rewrite Hb in Hst.
  assert (c = cells u' ∧ p = pcs u') as [-> ->] by (by injection Hst as <-). clear Hst.
  assert ((∃ n st, runs_check (base u) n st) ∨ (∀ n st, ¬ runs_check (base u) n st)) as Hdec.
  { unfold runs_check. destruct (stack (base u)) as [|[n k pr ws| |] st]; [right; naive_solver| |right; naive_solver|right; naive_solver].
    destruct (decide (k = check)) as [->|Hk]; [left; eauto 10|right]. intros n' st' (pr' & ws' & E). naive_solver. }
  destruct Hdec as [(n & st & Hrc)|Hno].
  - assert (Hmd : ∀ n v, EBuilt n md v ∈ trace (base u') → EBuilt n md v ∈ trace (base u)).
    { intros n' v Hin. rewrite Htr in Hin. apply elem_of_app in Hin as [?|Hin]; [done|]. destruct (Hes _ _ _ Hin) as (? & ? & ? & E & _).
      destruct Hrc as (? & ? & E'). rewrite E in E'. naive_solver. }
    destruct (control_check _ _ _ _ _ _ Hc Hrc) as [(Ep & _ & _ & Ec')|[(v & Ep & _ & _ & _ & _ & Ec')|[(v & w & Ep & Er & -> & _ & Ec')|(_ & _ & Ec')]]].
    + split; [rewrite Ec'|by intros n' v Hin%Hmd; apply H4 in Hin; rewrite Ec']. intros i w Hi. destruct (H3 _ _ Hi) as (? & ? & ? & ? & ? & ?). eauto 10.
    + split; [rewrite Ec'|by intros n' v' Hin%Hmd; apply H4 in Hin; rewrite Ec']. intros i w Hi. destruct (H3 _ _ Hi) as (? & ? & ? & ? & ? & ?). eauto 10.
    + pose proof Hrc as (pr & ws & E).
      split; rewrite Ec'.
      * intros i w' Hi. destruct (decide (nd_id v = i)) as [<-|Hne].
        -- exists n, v, w. split; [done|]. split; [by eapply return_built|].
           destruct (H1 _ _ Ep) as (st1 & n2 & pr2 & ws2 & st2 & E2 & El & _ & Hpi). rewrite E2 in E.
           change (FBuild n check pr ws :: st) with ([] ++ FBuild n check pr ws :: st) in E. apply split_pos in E as (-> & [= -> -> ->] & ->); [|done].
           apply Hmono, Hpi.
        -- rewrite lookup_insert_ne in Hi by done. destruct (H3 _ _ Hi) as (? & ? & ? & ? & ? & ?). eauto 10.
      * intros n' v' Hin%Hmd. apply H4 in Hin. destruct (decide (nd_id v = nd_id v')) as [->|Hne]; [rewrite lookup_insert; eauto|by rewrite lookup_insert_ne].
    + split; [rewrite Ec'|by intros n' v' Hin%Hmd; apply H4 in Hin; rewrite Ec']. intros i w Hi. destruct (H3 _ _ Hi) as (? & ? & ? & ? & ? & ?). eauto 10.
  - destruct (control_other _ _ _ _ Hc Hno) as [_ Hcells].
    assert (∀ i w, cells u' !! i = Some (Some w) → cells u !! i = Some (Some w)) as Hback.
    { intros i w Hi. unfold control in Hc. destruct (stack (base u)) as [|[n k pr ws| |] st] eqn:E; [by injection Hc as _ Hc; rewrite Hc| |by injection Hc as _ Hc; rewrite Hc|by injection Hc as _ Hc; rewrite Hc].
      case_bool_decide as Hk. { exfalso. subst k. apply (Hno n st). unfold runs_check. eauto. }
      case_bool_decide as Hk2; [|by injection Hc as _ Hc; rewrite Hc].
      destruct l as [| | | |[v|]| |]; try done. destruct (cells u !! nd_id v) eqn:Ec; [done|]. injection Hc as _ Hc. rewrite <- Hc in Hi.
      destruct (decide (nd_id v = i)) as [<-|Hne]; [by rewrite lookup_insert in Hi|by rewrite lookup_insert_ne in Hi]. }
    split.
    + intros i w Hi%Hback. destruct (H3 _ _ Hi) as (? & ? & ? & ? & ? & ?). eauto 10.
    + intros n v Hin. rewrite Htr in Hin. apply elem_of_app in Hin as [Hin|Hin].
      * destruct (H4 _ _ Hin) as (x & Hx). exists x. by apply Hcells.
      * destruct (Hes _ _ _ Hin) as (pr & ws & st & E & ->). unfold control in Hc. rewrite E in Hc. rewrite bool_decide_false in Hc by done. rewrite bool_decide_true in Hc by done.
        destruct (cells u !! nd_id v) eqn:Ec; [done|]. injection Hc as _ Hc. rewrite <- Hc, lookup_insert. eauto.
Qed.
Lemma uinv2_run reqs ls u : urun (uinit reqs) ls = Some u → acyclic getdef reqs ls → solo getdef check reqs ls → uinv2 u.
Proof.
  revert u. induction ls as [|l ls IH] using rev_ind; intros u.
  - intros [= <-] _ _. split.
    + intros i w Hi. simpl in Hi. by rewrite lookup_empty in Hi.
    + intros n v Hin. simpl in Hin. apply elem_of_list_lookup in Hin as (i & Hi). exfalso. by eapply init_len.
  - intros (u1 & Hr & Hs)%urun_snoc Hac Hso. pose proof (urun_base _ _ _ Hr) as Hrb. cbn [uinit base] in Hrb.
    eapply uinv2_step; [by eapply wf_run| | |exact Hs].
    + eapply uinv_run; [done|by eapply acyclic_prefix|by eapply solo_prefix].
    + apply IH; [done|by eapply acyclic_prefix|by eapply solo_prefix].
Qed.
Theorem fails_for_a_reason reqs ls u n st r u' : urun (uinit reqs) ls = Some u → acyclic getdef reqs ls → solo getdef check reqs ls → no_put ls →
  getdef md = Some r → w_name r = md →
  runs_check (base u) n st → ustep u (LReturn None) = Some u' →
  EGot n md None ∈ trace (base u) ∨ EGot n name None ∈ trace (base u) ∨
  (∃ n' w' v' v, EBuilt n' check w' ∈ trace (base u) ∧ EGot n' md (Some v') ∈ trace (base u) ∧ EGot n md (Some v) ∈ trace (base u) ∧ nd_id v' = nd_id v).
Proof.
  intros Hr Hac Hso Hnp Hd Hmd Hrc Hs. pose proof (urun_base _ _ _ Hr) as Hrb. cbn [uinit base] in Hrb.
  pose proof (uinv_run _ _ _ Hr Hac Hso) as [H1 H2]. pose proof (uinv2_run _ _ _ Hr Hac Hso) as [H3 H4].
  pose proof (ustep_base _ _ _ Hs) as Hb. assert (status_of (base u) = Going) as Hgo by (unfold step in Hb; by destruct (status_of (base u))).
  assert (Hon : ∀ q, pcs u !! length st = Some q → EGot n (keyof q) (result (base u)) ∈ trace (base u)).
  { intros q Ep. destruct (H1 _ _ Ep) as (st1 & n2 & pr2 & ws2 & st2 & E2 & El & Hp & _). destruct Hrc as (pr & ws & E). rewrite E2 in E.
    change (FBuild n check pr ws :: st) with ([] ++ FBuild n check pr ws :: st) in E. apply split_pos in E as (-> & [= -> -> ->] & ->); [|done].
    destruct (Hp Hgo) as (r' & Hl). unfold result. rewrite Hl. apply last_Some in Hl as (t & ->). set_solver. }
  unfold ustep in Hs. unfold control in Hs. destruct Hrc as (pr & ws & E). rewrite E in Hs. rewrite bool_decide_true in Hs by done.
  destruct (pcs u !! length st) as [[|v]|] eqn:Ep; [| |done].
  - specialize (Hon _ eq_refl). cbn [keyof] in Hon. destruct (result (base u)) as [v|] eqn:Er; [|by left].
    destruct (cells u !! nd_id v) as [[w|]|] eqn:Ec; [|done|].
    + right. right. destruct (H3 _ _ Ec) as (n' & v' & w' & Eid & G1 & G2).
      exists n', w', v', v. auto.
    + exfalso. destruct (got_from_home getdef _ _ _ _ _ _ Hcan Hrb Hac Hnp Hon) as (k1 & c1 & Hk1 & Hb1).
      destruct Hk1 as (d & Hd' & -> & _). rewrite Hd in Hd'. injection Hd' as <-. rewrite Hmd in Hb1. apply H4 in Hb1 as [x Hx]. congruence.
  - specialize (Hon _ eq_refl). cbn [keyof] in Hon. destruct (result (base u)) as [w|] eqn:Er; [|by right; left]. done.
Qed.

Theorem returns_the_node reqs ls u n w : urun (uinit reqs) ls = Some u → acyclic getdef reqs ls → solo getdef check reqs ls →
  EBuilt n check w ∈ trace (base u) → EGot n name (Some w) ∈ trace (base u).
Proof.
  intros Hr Hac Hso Hin. apply elem_of_list_lookup in Hin as (i & Hi).
  destruct (emitted _ _ _ _ _ Hr Hi) as (ls1 & l & ls2 & u1 & u2 & -> & Hr1 & Hs & Hlen & Hb2 & (t & Et)); [by eapply built_after_init|].
  pose proof (urun_base _ _ _ Hr1) as Hrb1. cbn [uinit base] in Hrb1.
  assert (uinv u1) as [H1 H2]. { eapply uinv_run; [done|by eapply acyclic_prefix|by eapply solo_prefix]. }
  assert (wf getdef (base u1)) as Hwf by (by eapply wf_run). pose proof (ustep_base _ _ _ Hs) as Hst.
  destruct (trace_step _ _ _ Hst Hwf) as (es & Es).
  assert (EBuilt n check w ∈ es) as Hin. { rewrite Es, lookup_app_r in Hb2 by done. by eapply elem_of_list_lookup_2. }
  assert (∃ pr ws st, stack (base u1) = FBuild n check pr ws :: st ∧ l = LReturn (Some w)) as (pr & ws & st & Etop & ->).
  { destruct l as [n' k' e|n' k' v|n' cn acc|front|r|ok|].
    - destruct (get_shape _ _ _ _ _ Hwf Hst) as [(es' & E & Hn) _]. rewrite Es in E. apply app_inv_head in E as <-. by apply Hn in Hin.
    - destruct (other_shape _ _ _ Hwf Hst) as [(es' & E & Hn) _]; [done|done|]. rewrite Es in E. apply app_inv_head in E as <-. by apply Hn in Hin.
    - destruct (other_shape _ _ _ Hwf Hst) as [(es' & E & Hn) _]; [done|done|]. rewrite Es in E. apply app_inv_head in E as <-. by apply Hn in Hin.
    - destruct (other_shape _ _ _ Hwf Hst) as [(es' & E & Hn) _]; [done|done|]. rewrite Es in E. apply app_inv_head in E as <-. by apply Hn in Hin.
    - destruct (return_shape _ _ _ Hst) as (j' & c' & pr & ws & st & E & (es' & E' & Hn) & _). rewrite Es in E'. apply app_inv_head in E' as <-.
      pose proof (Hn _ _ _ Hin) as (E1 & E2 & E3). subst. eauto 10.
    - destruct (other_shape _ _ _ Hwf Hst) as [(es' & E & Hn) _]; [done|done|]. rewrite Es in E. apply app_inv_head in E as <-. by apply Hn in Hin.
    - destruct (other_shape _ _ _ Hwf Hst) as [(es' & E & Hn) _]; [done|done|]. rewrite Es in E. apply app_inv_head in E as <-. by apply Hn in Hin. }
  assert (status_of (base u1) = Going) as Hgo by (unfold step in Hst; by destruct (status_of (base u1))).
  assert (runs_check (base u1) n st) as Hrc by (unfold runs_check; eauto).
  unfold ustep in Hs. destruct (control check md name u1 (LReturn (Some w))) as [[p c]|] eqn:Hc; [|done].
  destruct (control_check _ _ _ _ _ _ Hc Hrc) as [(_ & ? & _)|[(? & _ & _ & _ & ? & _)|[(v2 & w' & Ep & Er & [= <-] & _)|(? & _)]]]; try done.
  destruct (H1 _ _ Ep) as (st1 & n' & pr' & ws' & st2 & E & El & Hp & _).
  rewrite Etop in E. change (FBuild n check pr ws :: st) with ([] ++ FBuild n check pr ws :: st) in E. apply split_pos in E as (<- & [= <- <- <-] & <-); [|done].
  destruct (Hp Hgo) as (r & Hl). unfold result in Er. rewrite Hl in Er. subst r. cbn [keyof] in Hl.
  rewrite Et, Es. apply elem_of_app. left. apply elem_of_app. left. apply last_Some in Hl as (t' & ->). set_solver.
Qed.
End proofs.

(** ** Deferred functions *)
Lemma children_all cs h ok : ends_with (instantiate_children cs) h ok →
  (ok = true ↔ ∃ vs, h = zip_with (λ c v, AGet c true (Some v)) cs vs ∧ length vs = length cs) ∧
  (ok = false → ∃ cs1 c cs2 vs, cs = cs1 ++ c :: cs2 ∧ length vs = length cs1 ∧ h = zip_with (λ c v, AGet c true (Some v)) cs1 vs ++ [AGet c true None]).
Proof.
  revert h. induction cs as [|c cs IH]; intros h H; simpl in H.
  - inversion H; subst. split; [|done]. split; [|done]. intros _. by exists [].
  - inversion H as [|n e k r h' ok' H'|]; subst. destruct r as [v|].
    + destruct (IH _ H') as [I1 I2]. split.
      * rewrite I1. split.
        -- intros (vs & -> & Hl). exists (v :: vs). simpl. auto.
        -- intros (vs & E & Hl). destruct vs as [|v' vs]; [done|]. simpl in *. injection E as _ ->. exists vs. auto.
      * intros Hok. destruct (I2 Hok) as (cs1 & c' & cs2 & vs & -> & Hl & ->). exists (c :: cs1), c', cs2, (v :: vs). simpl. auto.
    + inversion H'; subst. split.
      * split; [done|]. intros (vs & E & Hl). destruct vs; [done|]. simpl in E. done.
      * intros _. by exists [], c, cs, [].
Qed.
Lemma instantiate_dst_ok is_addr iface first h : ends_with (instantiate_dst is_addr iface first) h true →
  ∃ a h', h = AGet iface true (Some a) :: h' ∧
    (is_addr a = true → (∃ d, ADest a (Some d) ∈ h') ∨ AGet first false None ∈ h').
Proof.
  intros H. unfold instantiate_dst in H. inversion H as [|n e k r h' ok H'|]; subst; clear H. destruct r as [a|]; [|by inversion H'].
  exists a, h'. split; [done|]. intros Ha. rewrite Ha in H'. inversion H' as [| |a' k d h2 ok H2]; subst; clear H'. destruct d as [d|].
  - left. exists d. by left.
  - inversion H2 as [|n e k r h3 ok H3|]; subst; clear H2. destruct r as [v|].
    + inversion H3 as [| |a' k d h4 ok H4]; subst; clear H3. destruct d as [d|]; [|by inversion H4]. left. exists d. set_solver.
    + right. set_solver.
Qed.
