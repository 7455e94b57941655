(** * Proofs about building the IR: deferred functions *)
From Coq Require Import Lia.
From Verif Require Import NS_Spec NS_Proof NS_Edges.

Section queue.
Context (getdef : wiring).
Implicit Types (l : list nspace) (n m j p id : nat) (name c k : string) (v : node) (s : state) (t : list event) (ws : list waiter) (w : waiter) (q : list (nat * dkind)) (fs : list frame).

Definition isrun id (e : event) : Prop := e = ERun id.
Global Instance isrun_dec id e : Decision (isrun id e).
Proof. destruct e as [| | | | | | |i|]; unfold isrun; [right; done..| |right; done]. destruct (decide (i = id)) as [->|]; [by left|right; congruence]. Defined.
Record core q nx t : Prop := Core {
  q_nodup : NoDup q.*1;
  q_lt : ∀ id, id ∈ q.*1 → id < nx;
  q_defer : ∀ id fr, EDefer id fr ∈ t → id < nx;
  q_run : ∀ id, ERun id ∈ t → id < nx ∧ id ∉ q.*1;
  q_all : ∀ id, id < nx → id ∈ q.*1 ∨ ERun id ∈ t;
  q_once : ∀ id, count (isrun id) t ≤ 1 }.
Definition noctl (e : event) : Prop := match e with ERun _ | EDefer _ _ => False | _ => True end.
Lemma core_emit q nx t es : (∀ e, e ∈ es → noctl e) → core q nx t → core q nx (t ++ es).
Proof.
  intros He [H1 H2 H3 H4 H5 H6]. split; [done|done|..].
  - intros id fr [Hin|Hin]%elem_of_app; [by eapply H3|by apply He in Hin].
  - intros id [Hin|Hin]%elem_of_app; [by apply H4|by apply He in Hin].
  - intros id Hid. destruct (H5 _ Hid); [by left|right; mem].
  - intros id. rewrite count_app, (count_none _ es); [specialize (H6 id); lia|]. intros e Hin%He ->. done.
Qed.
Lemma core_defer q nx t fr kd : core q nx t → core (if fr : bool then (nx, kd) :: q else q ++ [(nx, kd)]) (S nx) (t ++ [EDefer nx fr]).
Proof.
  intros [H1 H2 H3 H4 H5 H6].
  assert (∀ id, id ∈ (if fr then (nx, kd) :: q else q ++ [(nx, kd)]).*1 ↔ id = nx ∨ id ∈ q.*1) as Hel.
  { intros id. destruct fr; [by rewrite fmap_cons, elem_of_cons|]. rewrite fmap_app, elem_of_app. cbn. rewrite elem_of_list_singleton. tauto. }
  split.
  - destruct fr.
    + rewrite fmap_cons. apply list.NoDup_cons. split; [|done]. intros Hin%H2. simpl in Hin. lia.
    + rewrite fmap_app. apply NoDup_app. split; [done|]. split; [|apply NoDup_singleton]. intros id Hin ->%elem_of_list_singleton. apply H2 in Hin. simpl in Hin. lia.
  - intros id [->|Hin%H2]%Hel; lia.
  - intros id fr' [Hin%H3|Hin]%elem_of_app; [lia|]. apply elem_of_list_singleton in Hin as [= -> ->]. lia.
  - intros id [Hin|Hin]%elem_of_app; [|by apply elem_of_list_singleton in Hin]. apply H4 in Hin as [? Hin]. split; [lia|]. intros [->|?]%Hel; [lia|done].
  - intros id Hid. destruct (decide (id = nx)) as [->|]; [left; apply Hel; by left|]. destruct (H5 id) as [|]; [lia|left; apply Hel; by right|right; mem].
  - intros id. rewrite count_app, (count_none _ [_]); [specialize (H6 id); lia|]. intros e He ->. by apply elem_of_list_singleton in He.
Qed.
Lemma core_next q nx t id kd : core ((id, kd) :: q) nx t → core q nx (t ++ [ERun id]).
Proof.
  intros [H1 H2 H3 H4 H5 H6]. rewrite fmap_cons in *. apply list.NoDup_cons in H1 as [Hnin H1]. simpl in *. split; [done|..].
  - intros id' Hin. apply H2. by right.
  - intros id' fr [Hin%H3|Hin]%elem_of_app; [lia|]. by apply elem_of_list_singleton in Hin.
  - intros id' [Hin|Hin]%elem_of_app.
    + apply H4 in Hin as [? Hin]. split; [done|]. intros ?. apply Hin. by right.
    + apply elem_of_list_singleton in Hin as [= ->]. split; [apply H2; by left|done].
  - intros id' Hid. apply H5 in Hid as [[->|Hin]%elem_of_cons|Hin]; [right; mem|by left|right; mem].
  - intros id'. rewrite count_app. destruct (decide (id' = id)) as [->|].
    + rewrite (count_none _ t); [unfold count; rewrite filter_cons; case_decide; simpl; lia|]. intros e Hin ->. apply H4 in Hin as [_ Hin]. apply Hin. by left.
    + rewrite (count_none _ [_]); [specialize (H6 id'); lia|]. intros e He ->. apply elem_of_list_singleton in He as [= ->]. done.
Qed.

(** ** Control *)
Definition bottom fs id : Prop := ∃ pre f, fs = pre ++ [f] ∧ (f = FDeferred id ∨ f = FRequest id).
Definition isbuild (f : frame) : Prop := match f with FBuild _ _ _ _ => True | _ => False end.
Record ctl (reqs : list string) q fs (x : status) t : Prop := Ctl {
  c_bottom : fs = [] ∨ ∃ pre f id, fs = pre ++ [f] ∧ Forall isbuild pre ∧ (f = FDeferred id ∨ f = FRequest id);
  c_ended : ∀ id, ERun id ∈ t → EEnd id true ∈ t ∨ EEnd id false ∈ t ∨ bottom fs id;
  c_false : ∀ id, EEnd id false ∈ t → x = Failed ∧ last t = Some (EEnd id false);
  c_failed : x = Failed → ∃ id, last t = Some (EEnd id false);
  c_done : x = Done → fs = [] ∧ q = [];
  c_seq : ∀ t1 y t2, t = t1 ++ ERun y :: t2 → ∀ id, ERun id ∈ t1 → EEnd id true ∈ t1;
  c_req : ∀ i name, reqs !! i = Some name → (i, DRequest name) ∈ q ∨
      (∃ pre m k pr ws, fs = pre ++ [FBuild m k pr ws; FRequest i] ∧ ends m k ws = (0, name)) ∨ (∃ v, EGot 0 name (Some v) ∈ t) ∨ x = Failed ∨ x = Panicked }.
Definition quiet_ctl (e : event) : Prop := match e with ERun _ | EEnd _ _ => False | _ => True end.

Lemma seq_emit t es : (∀ t1 y t2, t = t1 ++ ERun y :: t2 → ∀ id, ERun id ∈ t1 → EEnd id true ∈ t1) → (∀ y, ERun y ∉ es) →
  ∀ t1 y t2, t ++ es = t1 ++ ERun y :: t2 → ∀ id, ERun id ∈ t1 → EEnd id true ∈ t1.
Proof.
  intros H He t1 y t2 Heq. apply app_eq_inv in Heq as [(t' & -> & Ht')|(t' & -> & ->)].
  - destruct t' as [|e t']; simpl in Ht'.
    + destruct (He y). rewrite <- Ht'. by left.
    + injection Ht' as <- ->. by eapply H.
  - destruct (He y). mem.
Qed.
Lemma ctl_push reqs q q' fs pre x' t es : ctl reqs q fs Going t → (fs ≠ []) → Forall isbuild pre → (x' = Going ∨ x' = Panicked) → (∀ e, e ∈ es → quiet_ctl e) → (∀ a, a ∈ q → a ∈ q') →
  ctl reqs q' (pre ++ fs) x' (t ++ es).
Proof.
  intros [H1 H2 H3 H4 H5 H6 H7] Hne Hpre Hx He Hq. split.
  - right. destruct H1 as [|(pre' & f & id & -> & Hb & Hf)]; [done|]. exists (pre ++ pre'), f, id. split; [by rewrite <- (assoc_L (++))|]. split; [by apply Forall_app|done].
  - intros id [Hin|Hin]%elem_of_app; [|by apply He in Hin]. destruct (H2 _ Hin) as [?|[Hf|(pre' & f & -> & Hf)]]; [left; mem|by apply H3 in Hf as [? _]|].
    right. right. exists (pre ++ pre'), f. split; [by rewrite <- (assoc_L (++))|done].
  - intros id [Hin|Hin]%elem_of_app; [by apply H3 in Hin as [? _]|by apply He in Hin].
  - intros ->. by destruct Hx.
  - intros ->. by destruct Hx.
  - apply seq_emit; [done|]. intros y Hy. by apply He in Hy.
  - intros i name Hi. destruct (H7 _ _ Hi) as [?|[(pre' & m & k & pr & ws & -> & Hends)|[[v ?]|[?|?]]]]; [left; by apply Hq|right; left|right; right; left; exists v; mem|done|done].
    exists (pre ++ pre'), m, k, pr, ws. split; [by rewrite <- (assoc_L (++))|done].
Qed.
Lemma ctl_pop reqs q f fs t es : ctl reqs q (f :: fs) Going t → isbuild f → (∀ id, fs ≠ [FRequest id]) → (∀ e, e ∈ es → quiet_ctl e) → ctl reqs q fs Going (t ++ es).
Proof.
  intros [H1 H2 H3 H4 H5 H6 H7] Hf Hnr He. split.
  - destruct H1 as [|([|f' pre] & f0 & id & Heq & Hb & Hf0)]; [done| |]; simplify_eq/=.
    + by destruct Hf0 as [-> | ->].
    + right. exists pre, f0, id. split; [done|]. by apply Forall_cons_1 in Hb as [_ ?].
  - intros id [Hin|Hin]%elem_of_app; [|by apply He in Hin]. destruct (H2 _ Hin) as [?|[Hx|([|f' pre'] & f0 & Heq & Hf0)]]; [left; mem|by apply H3 in Hx as [? _]| |]; simplify_eq/=.
    + by destruct Hf0 as [-> | ->].
    + right. right. by exists pre', f0.
  - intros id [Hin|Hin]%elem_of_app; [by apply H3 in Hin as [? _]|by apply He in Hin].
  - done.
  - done.
  - apply seq_emit; [done|]. intros y Hy. by apply He in Hy.
  - intros i name Hi. destruct (H7 _ _ Hi) as [?|[([|f' pre'] & m & k & pr & ws & Heq & Hends)|[[v ?]|[?|?]]]]; [by left| | |right; right; left; exists v; mem|done|done]; simplify_eq/=.
    { by destruct (Hnr i). } right. left. by exists pre', m, k, pr, ws.
Qed.
(** A deferred function ends. *)
Lemma ctl_end reqs q fs t es id ok : ctl reqs q fs Going t → (∀ i, bottom fs i → i = id) → (∀ e, e ∈ es → quiet_ctl e) →
  (ok = true → ∀ name, reqs !! id = Some name → (∃ pre m k pr ws, fs = pre ++ [FBuild m k pr ws; FRequest id] ∧ ends m k ws = (0, name)) → ∃ v, EGot 0 name (Some v) ∈ es) →
  ctl reqs q [] (if ok : bool then Going else Failed) (t ++ es ++ [EEnd id ok]).
Proof.
  intros [H1 H2 H3 H4 H5 H6 H7] Hb He Hreq. split.
  - by left.
  - intros i [Hin|Hin]%elem_of_app.
    + destruct (H2 _ Hin) as [?|[Hx|Hbo]]; [left; mem|by apply H3 in Hx as [? _]|]. rewrite (Hb _ Hbo). destruct ok; [left; mem|right; left; mem].
    + apply elem_of_app in Hin as [Hin|Hin]; [by apply He in Hin|by apply elem_of_list_singleton in Hin].
  - intros i [Hin|Hin]%elem_of_app; [by apply H3 in Hin as [? _]|]. apply elem_of_app in Hin as [Hin|Hin]; [by apply He in Hin|].
    apply elem_of_list_singleton in Hin as [= -> <-]. split; [done|]. by rewrite (assoc_L (++)), last_snoc.
  - destruct ok; [done|]. intros _. exists id. by rewrite (assoc_L (++)), last_snoc.
  - by destruct ok.
  - apply seq_emit; [done|]. intros y Hy. apply elem_of_app in Hy as [Hy|Hy]; [by apply He in Hy|by apply elem_of_list_singleton in Hy].
  - intros i name Hi. destruct ok; [|right; right; right; by left].
    destruct (H7 _ _ Hi) as [?|[(pre & m & k & pr & ws & Hfs & Hends)|[[v ?]|[?|?]]]]; [by left| |right; right; left; exists v; mem|done|done].
    assert (i = id) as ->. { apply Hb. exists (pre ++ [FBuild m k pr ws]), (FRequest i). split; [by rewrite Hfs, <- (assoc_L (++))|by right]. }
    right. right. left. destruct (Hreq eq_refl name Hi) as [v Hv]; [eauto 10|]. exists v. mem.
Qed.

Definition qinv reqs s : Prop := core (queue s) (next s) (trace s) ∧ ctl reqs (queue s) (stack s) (status_of s) (trace s).
Lemma answer_ctl r ws s : ∃ es, (∀ e, e ∈ es → quiet_ctl e ∧ noctl e) ∧ (∀ w, w ∈ ws → EGot (wn w) (wname w) r ∈ es) ∧ queue (answer r ws s) = queue s ∧ next (answer r ws s) = next s ∧
  ((∃ id st, stack s = FRequest id :: st ∧ stack (answer r ws s) = st ∧ status_of (answer r ws s) = (if r then Going else Failed) ∧ trace (answer r ws s) = trace s ++ es ++ [EEnd id (if r then true else false)]) ∨
   ((∀ id st, stack s ≠ FRequest id :: st) ∧ stack (answer r ws s) = stack s ∧ status_of (answer r ws s) = status_of s ∧ trace (answer r ws s) = trace s ++ es)).
Proof.
  assert (∃ es, trace (foldl (resume r) s ws) = trace s ++ es ∧ (∀ w, w ∈ ws → EGot (wn w) (wname w) r ∈ es) ∧ (∀ e, e ∈ es → quiet_ctl e ∧ noctl e)) as (es & Htr & Hgot & Hes).
  { revert s. induction ws as [|w ws IH]; intros s; [exists []; split; [by rewrite app_nil_r|by split; intros ? ?%elem_of_nil]|]. simpl.
    destruct (IH (resume r s w)) as (es & -> & Hg & Hes). rewrite resume_trace, <- (assoc_L (++)). eexists. split; [done|]. split.
    - intros w' [->|Hw']%elem_of_cons; [unfold resume_events; mem|]. apply elem_of_app. right. by apply Hg.
    - intros e [He|He]%elem_of_app; [|by apply Hes]. unfold resume_events in He. apply elem_of_app in He as [He|He]; [|by apply elem_of_list_singleton in He as ->].
      destruct r as [v|]; [|by apply elem_of_nil in He]. unfold edge_event in He. destruct w; [by apply elem_of_nil in He|].
      destruct (is_added _ _ _); [by apply elem_of_nil in He|]. destruct (_ && _); [by apply elem_of_list_singleton in He as ->|by apply elem_of_nil in He]. }
  destruct (foldl_rest r ws s) as (R1 & R2 & R3 & R4). exists es. split; [done|]. split; [done|].
  destruct (answer_queue r ws s) as [-> ->]. split; [done|]. split; [done|]. unfold answer.
  destruct (deliver_cases r (foldl (resume r) s ws)) as [(id & st & Hst & ->)|[Hn ->]].
  - left. exists id, st. rewrite R1 in Hst. split; [done|]. cbn [emit set_status set_stack stack status_of trace]. split; [done|]. rewrite Htr, <- (assoc_L (++)). by destruct r.
  - right. rewrite R1 in Hn. done.
Qed.
Lemma qinv_call_user reqs s n name edge : canonical getdef → wf getdef s → qinv reqs s → n < length (nss s) → user_code s = true → status_of s = Going →
  qinv reqs (call getdef s n name edge).
Proof.
  intros Hcan Hw [Hc Hl] Hn Hu Hg. rewrite Hg in Hl. pose proof (call_cases getdef s n name edge) as Hcc.
  assert (stack s ≠ []) as Hne by (unfold user_code in Hu; by destruct (stack s)).
  assert (∀ id st, stack s ≠ FRequest id :: st) as Hnr by (intros id st Heq; unfold user_code in Hu; by rewrite Heq in Hu).
  destruct (resolve getdef (fuel_for n) (nss s) n name edge []) as [m k v ws| |m k ws|m k proxy ws]; rewrite Hcc.
  - destruct (answer_ctl (Some v) ws (emit [EGot m k (Some v)] s)) as (es & Hes & _ & Hq & Hx & [(id & st & Hst & _)|(_ & Hst & Hsta & Htr)]); [by destruct (Hnr id st)|].
    unfold qinv. rewrite Hq, Hx, Hst, Hsta, Htr. cbn [emit queue next stack status_of trace]. rewrite Hg, <- (assoc_L (++)). split.
    + apply core_emit; [|done]. intros e [He|He]%elem_of_app; [by apply elem_of_list_singleton in He as ->|by apply Hes].
    + apply (ctl_push reqs (queue s) _ (stack s) []); try done; [by left|]. intros e [He|He]%elem_of_app; [by apply elem_of_list_singleton in He as ->|by apply Hes].
  - unfold qinv. cbn [set_status queue next stack status_of trace]. split; [done|]. rewrite <- (app_nil_r (trace s)). apply (ctl_push reqs (queue s) _ (stack s) []); try done; [by right|]. by intros e ?%elem_of_nil.
  - destruct (answer_ctl None ws (emit [EGot m k None] s)) as (es & Hes & _ & Hq & Hx & [(id & st & Hst & _)|(_ & Hst & Hsta & Htr)]); [by destruct (Hnr id st)|].
    unfold qinv. rewrite Hq, Hx, Hst, Hsta, Htr. cbn [emit queue next stack status_of trace]. rewrite Hg, <- (assoc_L (++)). split.
    + apply core_emit; [|done]. intros e [He|He]%elem_of_app; [by apply elem_of_list_singleton in He as ->|by apply Hes].
    + apply (ctl_push reqs (queue s) _ (stack s) []); try done; [by left|]. intros e [He|He]%elem_of_app; [by apply elem_of_list_singleton in He as ->|by apply Hes].
  - unfold qinv. cbn [emit set_stack queue next stack status_of trace]. rewrite Hg. split.
    + apply core_emit; [|done]. intros e He. by apply elem_of_list_singleton in He as ->.
    + apply (ctl_push reqs (queue s) _ (stack s) [_]); try done; [constructor; [done|constructor]|by left|]. intros e He. by apply elem_of_list_singleton in He as ->.
Qed.
Lemma qinv_finish reqs s j c pr ws fs r : qinv reqs s → status_of s = Going → stack s = FBuild j c pr ws :: fs → qinv reqs (finish_build j c pr ws r (set_stack fs s)).
Proof.
  intros [Hc Hl] Hg Hst. rewrite Hg, Hst in Hl. unfold finish_build.
  assert (∀ s1 es1, (∀ e, e ∈ es1 → quiet_ctl e ∧ noctl e) → EGot j c r ∈ es1 → queue s1 = queue s → next s1 = next s → stack s1 = fs → status_of s1 = Going → trace s1 = trace s ++ es1 →
            qinv reqs (answer r ws s1)) as Hgen.
  { intros s1 es1 He1 Hgot1 Hq1 Hx1 Hs1 Hg1 Ht1. destruct (answer_ctl r ws s1) as (es & Hes & Hgot & Hq & Hx & Hcase). unfold qinv.
    rewrite Hq, Hx, Hq1, Hx1. destruct Hcase as [(id & st & Hst1 & -> & -> & ->)|(Hnr & -> & -> & ->)].
    - rewrite Ht1. split.
      + rewrite <- (assoc_L (++)). apply core_emit; [|done]. intros e [He|[He|He]%elem_of_app]%elem_of_app; [by apply He1|by apply Hes|]. by apply elem_of_list_singleton in He as ->.
      + assert (st = []) as ->.
        { destruct (c_bottom _ _ _ _ _ Hl) as [|([|f' pre] & f0 & id0 & Heq & Hb & Hf0)]; [done| |]; simplify_eq/=; [by destruct Hf0|].
          apply Forall_cons_1 in Hb as [_ Hb]. destruct pre as [|f1 pre]; simplify_eq/=; [congruence|]. rewrite Hst1 in *. simplify_eq/=. by apply Forall_cons_1 in Hb as [? _]. }
        assert (∀ i, bottom (FBuild j c pr ws :: fs) i → i = id) as Hbot.
        { intros i (pre & f0 & Heq & Hf0). destruct pre as [|f' [|f'' pre]]; simplify_eq/=; [by destruct Hf0| |].
          - rewrite Hst1 in *. simplify_eq/=. destruct Hf0 as [? | ?]; by simplify_eq.
          - rewrite Hst1 in *. simplify_eq/=. by destruct pre. }
        pose proof (ctl_end reqs (queue s) _ (trace s) (es1 ++ es) id (if r then true else false) Hl Hbot) as Hend.
        rewrite <- !(assoc_L (++)) in *. destruct r as [v|]; apply Hend; try done.
        * intros e [He|He]%elem_of_app; [by apply He1|by apply Hes].
        * intros _ name _ (pre & m & k & pr' & ws' & Hfs & Hends). exists v.
          assert (m = j ∧ k = c ∧ ws' = ws) as (-> & -> & ->).
          { rewrite <- Hs1, Hst1 in Hfs. destruct pre as [|f' [|f'' pre]]; simplify_eq/=; done || (by destruct pre). }
          eapply ends_got; [exact Hends|mem|]. intros w Hin. apply elem_of_app. right. by apply Hgot.
        * intros e [He|He]%elem_of_app; [by apply He1|by apply Hes].
    - rewrite Hs1, Hg1, Ht1, <- (assoc_L (++)). split.
      + apply core_emit; [|done]. intros e [He|He]%elem_of_app; [by apply He1|by apply Hes].
      + eapply ctl_pop; [exact Hl|done| |].
        * intros id Heq. apply (Hnr id []). congruence.
        * intros e [He|He]%elem_of_app; [by apply He1|by apply Hes]. }
  destruct r as [v|].
  - set (b := is_added _ j (nd_name v)). 
    eapply (Hgen _ ([EBuilt j c v] ++ (if b || pr then [] else [ENode j c v]) ++ [EGot j c (Some v)])).
    + intros e [He|[He|He]%elem_of_app]%elem_of_app; [by apply elem_of_list_singleton in He as ->| |by apply elem_of_list_singleton in He as ->].
      destruct (b || pr); [by apply elem_of_nil in He|by apply elem_of_list_singleton in He as ->].
    + mem.
    + destruct b; [done|by destruct pr].
    + destruct b; [done|by destruct pr].
    + destruct b; [done|by destruct pr].
    + destruct b; [done|by destruct pr].
    + destruct b; [|destruct pr]; cbn [emit alter_ns set_stack trace orb]; by rewrite <- ?(assoc_L (++)).
  - apply (Hgen _ [EFailed j c; EGot j c None]); try done; [|mem]. intros e He. apply elem_of_cons in He as [->|He]; [done|]. by apply elem_of_list_singleton in He as ->.
Qed.
Lemma qinv_step reqs s x s' : canonical getdef → wf getdef s → qinv reqs s → step getdef s x = Some s' → qinv reqs s'.
Proof.
  intros Hcan Hw Hi Hstep. unfold step in Hstep. destruct (status_of s) eqn:Hg; try done. pose proof Hi as [Hc Hl]. rewrite Hg in Hl.
  assert (∀ fs0 : list frame, user_code s = true → stack s ≠ []) as Hne by (intros _ Hu; unfold user_code in Hu; by destruct (stack s)). specialize (Hne []).
  destruct x as [n name edge|n name v|n cn ac|front|r|ok|].
  - destruct (user_code s && bool_decide (n < length (nss s))) eqn:Hu; [|done]. injection Hstep as <-. apply andb_true_iff in Hu as [Hu Hn%bool_decide_eq_true].
    by apply qinv_call_user.
  - destruct (user_code s) eqn:Hu; [|done]. specialize (Hne eq_refl). destruct (nss s !! n) as [x|]; [|done].
    destruct (n_accepts x (nd_type v)); [|destruct (n_parent x)]; injection Hstep as <-; (split; cbn [emit alter_ns set_status queue next stack status_of trace]).
    + apply core_emit; [|done]. intros e He. by apply elem_of_list_singleton in He as ->.
    + apply (ctl_push reqs (queue s) _ (stack s) []); try done; [rewrite Hg; by left|]. intros e He. by apply elem_of_list_singleton in He as ->.
    + done.
    + by rewrite Hg.
    + done.
    + rewrite <- (app_nil_r (trace s)). apply (ctl_push reqs (queue s) _ (stack s) []); try done; [by right|]. by intros e ?%elem_of_nil.
  - destruct (user_code s) eqn:Hu; [|done]. destruct (nss s !! n) as [x|]; [|done]. case_bool_decide; injection Hstep as <-; [done|]. split; [done|]. done.
  - destruct (user_code s) eqn:Hu; [|done]. specialize (Hne eq_refl). injection Hstep as <-. split; cbn [defer queue next stack status_of trace]; [by apply core_defer|].
    rewrite Hg. apply (ctl_push reqs (queue s) _ (stack s) []); try done; [by left| |destruct front; mem]. intros e He. by apply elem_of_list_singleton in He as ->.
  - destruct (stack s) as [|[n name proxy ws| |] st] eqn:Hst; try done. injection Hstep as <-. by apply qinv_finish.
  - destruct (stack s) as [|[|id|] st] eqn:Hst; try done. injection Hstep as <-. split; cbn [emit set_status set_stack queue next stack status_of trace].
    + apply core_emit; [|done]. intros e He. by apply elem_of_list_singleton in He as ->.
    + assert (st = []) as ->.
      { destruct (c_bottom _ _ _ _ _ Hl) as [|([|f' pre] & f0 & id0 & Heq & Hb & Hf0)]; [done| |]; simplify_eq/=; [done|]. by apply Forall_cons_1 in Hb as [? _]. }
      pose proof (ctl_end reqs (queue s) _ (trace s) [] id ok Hl) as Hend. simpl in Hend. apply Hend.
      * intros i (pre & f0 & Heq & Hf0). destruct pre as [|? [|]]; simplify_eq/=. destruct Hf0 as [? | ?]; by simplify_eq.
      * by intros e ?%elem_of_nil.
      * intros _ name _ (pre & m & k & pr' & ws' & Hfs & Hends). destruct pre as [|? [|]]; simplify_eq/=.
  - destruct (stack s) as [|f st] eqn:Hst; [|done]. destruct (queue s) as [|[id kd] q] eqn:Hq.
    + injection Hstep as <-. split; cbn [set_status queue next stack status_of trace]; rewrite Hq; [done|]. rewrite Hst. destruct Hl as [H1 H2 H3 H4 H5 H6 H7]. split; try done.
      * intros id Hin. by apply H3 in Hin as [? _].
      * intros i name Hi'. destruct (H7 _ _ Hi') as [Hx|[?|[?|[?|?]]]]; [by apply elem_of_nil in Hx|right; by left|right; right; by left|done|done].
    + apply core_next in Hc. set (s1 := State (nss s) _ q (next s) _ (trace s ++ [ERun id])) in *.
      assert (wf getdef s1) as Hw1. { eapply wf_skel; [| |exact Hw]; [done|]. simpl. intros f Hf. right. apply elem_of_list_singleton in Hf as ->. destruct kd; eauto. }
      assert (0 < length (nss s)) as Hlen by (destruct (f_root _ _ Hw) as (x & Hx & _); by apply lookup_lt_Some in Hx).
      (* control just after ERun, without the requested node's clause *)
      assert (∀ fs x' es, (fs = [] ∨ ∃ pre f, fs = pre ++ [f] ∧ Forall isbuild pre ∧ (f = FDeferred id ∨ f = FRequest id)) →
                (∀ e, e ∈ es → quiet_ctl e) → ((fs ≠ [] ∧ (x' = Going ∨ x' = Panicked) ∧ ∃ pre f, fs = pre ++ [f] ∧ (f = FDeferred id ∨ f = FRequest id))) →
                (∀ name, kd = DRequest name → x' = Panicked ∨ ∃ pre m k pr ws, fs = pre ++ [FBuild m k pr ws; FRequest id] ∧ ends m k ws = (0, name)) →
                ctl reqs q fs x' (trace s ++ ERun id :: es)) as Hgo.
      { intros fs x' es Hb He (Hfs & Hx' & Hbot) Hreq. destruct Hl as [H1 H2 H3 H4 H5 H6 H7]. split.
        - destruct Hb as [?|(pre & f & ? & ? & ?)]; [by left|right; by exists pre, f, id].
        - intros i Hin. apply elem_of_app in Hin as [Hin|Hin].
          + destruct (H2 _ Hin) as [?|[Hx|(pre & f & Heq & _)]]; [left; mem|by apply H3 in Hx as [? _]|by destruct pre].
          + apply elem_of_cons in Hin as [[= ->]|Hin]; [|by apply He in Hin]. right. right. destruct Hbot as (pre & f & ? & ?). by exists pre, f.
        - intros i Hin. apply elem_of_app in Hin as [Hin|Hin]; [by apply H3 in Hin as [? _]|]. apply elem_of_cons in Hin as [?|Hin]; [done|by apply He in Hin].
        - intros ->. by destruct Hx'.
        - intros ->. by destruct Hx'.
        - change (ERun id :: es) with ([ERun id] ++ es). rewrite (assoc_L (++)). apply seq_emit; [|intros y Hy; by apply He in Hy].
          intros t1 y t2 Heq i Hin. destruct t2 as [|e t2 _] using rev_ind.
          + apply app_inj_tail in Heq as [<- _]. destruct (H2 _ Hin) as [?|[Hx|(pre & f & Heq & _)]]; [done|by apply H3 in Hx as [? _]|by destruct pre].
          + rewrite app_comm_cons, (assoc_L (++)) in Heq. apply app_inj_tail in Heq as [Heq _]. by eapply H6.
        - intros i name Hi'. destruct (H7 _ _ Hi') as [Hx|[(pre & m & k & pr & ws & Hfs' & _)|[[v ?]|[?|?]]]].
          + apply elem_of_cons in Hx as [[= -> <-]|Hx]; [|by left]. destruct (Hreq _ eq_refl) as [|?]; [by right; right; right; right|right; by left].
          + by destruct pre.
          + right; right; left; exists v; mem.
          + done.
          + done. }
      (* ... and one that ends at once *)
      assert (∀ ok es, kd ≠ DUser → (∀ e, e ∈ es → quiet_ctl e) → (∀ name, kd = DRequest name → ok = true → ∃ v, EGot 0 name (Some v) ∈ es) →
                ctl reqs q [] (if ok : bool then Going else Failed) (trace s ++ ERun id :: es ++ [EEnd id ok])) as Hended.
      { intros ok es Hkd He Hreq. destruct Hl as [H1 H2 H3 H4 H5 H6 H7]. split.
        - by left.
        - intros i Hin. apply elem_of_app in Hin as [Hin|Hin].
          + destruct (H2 _ Hin) as [?|[Hx|(pre & f & Heq & _)]]; [left; mem|by apply H3 in Hx as [? _]|by destruct pre].
          + apply elem_of_cons in Hin as [[= ->]|Hin]; [destruct ok; [left; mem|right; left; mem]|]. apply elem_of_app in Hin as [Hin|Hin]; [by apply He in Hin|]. by apply elem_of_list_singleton in Hin.
        - intros i Hin. apply elem_of_app in Hin as [Hin|Hin]; [by apply H3 in Hin as [? _]|]. apply elem_of_cons in Hin as [?|Hin]; [done|]. apply elem_of_app in Hin as [Hin|Hin]; [by apply He in Hin|].
          apply elem_of_list_singleton in Hin as [= -> <-]. split; [done|]. by rewrite app_comm_cons, (assoc_L (++)), last_snoc.
        - destruct ok; [done|]. intros _. exists id. by rewrite app_comm_cons, (assoc_L (++)), last_snoc.
        - by destruct ok.
        - change (ERun id :: es ++ [EEnd id ok]) with ([ERun id] ++ (es ++ [EEnd id ok])). rewrite (assoc_L (++)).
          apply seq_emit; [|intros y Hy; apply elem_of_app in Hy as [Hy|Hy]; [by apply He in Hy|by apply elem_of_list_singleton in Hy]].
          intros t1 y t2 Heq i Hin. destruct t2 as [|e t2 _] using rev_ind.
          + apply app_inj_tail in Heq as [<- _]. destruct (H2 _ Hin) as [?|[Hx|(pre & f & Heq & _)]]; [done|by apply H3 in Hx as [? _]|by destruct pre].
          + rewrite app_comm_cons, (assoc_L (++)) in Heq. apply app_inj_tail in Heq as [Heq _]. by eapply H6.
        - intros i name Hi'. destruct ok; [|right; right; right; by left]. destruct (H7 _ _ Hi') as [Hx|[(pre & m & k & pr & ws & Hfs' & _)|[[v ?]|[?|?]]]].
          + apply elem_of_cons in Hx as [[= -> <-]|Hx]; [|by left]. destruct (Hreq _ eq_refl eq_refl) as [v ?]. right; right; left; exists v; mem.
          + by destruct pre.
          + right; right; left; exists v; mem.
          + done.
          + done. }
      destruct kd as [name|]; injection Hstep as <-.
      * pose proof (call_cases getdef s1 0 name true) as Hcc. pose proof (resolve_spec getdef (fuel_for 0) (nss s1) 0 name true [] (f_older _ _ Hw1) Hlen Hcan) as Hr.
        destruct (resolve getdef (fuel_for 0) (nss s1) 0 name true []) as [m k v ws| |m k ws|m k proxy ws]; rewrite Hcc.
        -- destruct Hr as (new & -> & G1 & G2 & G3 & G4 & G5 & _). rewrite app_nil_r in *.
           destruct (answer_ctl (Some v) new (emit [EGot m k (Some v)] s1)) as (es & Hes & Hgot & Hqq & Hx & [(id' & st & Hst' & Hst2 & Hsta & Htr)|(Hnr & _)]); [|by destruct (Hnr id [])].
           simpl in Hst'. injection Hst' as <- <-. unfold qinv. rewrite Hqq, Hx, Hst2, Hsta, Htr. cbn [emit s1 queue next trace].
           rewrite <- !(assoc_L (++)). split.
           ++ rewrite (assoc_L (++)). apply core_emit; [|done]. intros e He. apply elem_of_app in He as [He|He]; [by apply elem_of_list_singleton in He as ->|].
              apply elem_of_app in He as [He|He]; [by apply Hes|by apply elem_of_list_singleton in He as ->].
           ++ apply (Hended true ([EGot m k (Some v)] ++ es)); [done| |].
              ** intros e [He|He]%elem_of_app; [by apply elem_of_list_singleton in He as ->|by apply Hes].
              ** intros name' [= <-] _. exists v. eapply ends_got; [exact G5|mem|]. intros w Hin. apply elem_of_app. right. by apply Hgot.
        -- split; [done|]. cbn [set_status s1 stack status_of queue trace]. apply (Hgo [FRequest id] Panicked []).
           ++ right. exists [], (FRequest id). split; [done|]. split; [constructor|by right].
           ++ by intros e ?%elem_of_nil.
           ++ split; [done|]. split; [by right|]. exists [], (FRequest id). split; [done|by right].
           ++ intros ? _. by left.
        -- destruct Hr as (new & -> & G2 & G3 & G4 & G5). rewrite app_nil_r in *.
           destruct (answer_ctl None new (emit [EGot m k None] s1)) as (es & Hes & Hgot & Hqq & Hx & [(id' & st & Hst' & Hst2 & Hsta & Htr)|(Hnr & _)]); [|by destruct (Hnr id [])].
           simpl in Hst'. injection Hst' as <- <-. unfold qinv. rewrite Hqq, Hx, Hst2, Hsta, Htr. cbn [emit s1 queue next trace].
           rewrite <- !(assoc_L (++)). split.
           ++ rewrite (assoc_L (++)). apply core_emit; [|done]. intros e He. apply elem_of_app in He as [He|He]; [by apply elem_of_list_singleton in He as ->|].
              apply elem_of_app in He as [He|He]; [by apply Hes|by apply elem_of_list_singleton in He as ->].
           ++ apply (Hended false ([EGot m k None] ++ es)); [done| |done].
              intros e [He|He]%elem_of_app; [by apply elem_of_list_singleton in He as ->|by apply Hes].
        -- destruct Hr as (new & -> & G1 & G2 & G3 & G4 & G5 & G6 & _). rewrite app_nil_r in *. unfold qinv. cbn [emit set_stack s1 stack status_of queue next trace]. rewrite <- !(assoc_L (++)). split.
           ++ rewrite (assoc_L (++)). apply core_emit; [|done]. intros e He. by apply elem_of_list_singleton in He as ->.
           ++ apply (Hgo [FBuild m k proxy new; FRequest id] Going [EBuild m k]).
              ** right. exists [FBuild m k proxy new], (FRequest id). split; [done|]. split; [constructor; [done|constructor]|by right].
              ** intros e He. by apply elem_of_list_singleton in He as ->.
              ** split; [done|]. split; [by left|]. exists [FBuild m k proxy new], (FRequest id). split; [done|by right].
              ** intros name' [= <-]. right. by exists [], m, k, proxy, new.
      * split; [done|]. cbn [s1 stack status_of queue trace]. apply (Hgo [FDeferred id] Going []).
        -- right. exists [], (FDeferred id). split; [done|]. split; [constructor|by left].
        -- by intros e ?%elem_of_nil.
        -- split; [done|]. split; [by left|]. exists [], (FDeferred id). split; [done|by left].
        -- done.
Qed.
Lemma core_init (reqs : list string) s : core (queue s) (next s) (trace s) → core (queue (foldl (λ s name, defer true (DRequest name) s) s reqs)) (next (foldl (λ s name, defer true (DRequest name) s) s reqs)) (trace (foldl (λ s name, defer true (DRequest name) s) s reqs)).
Proof. revert s. induction reqs as [|r reqs IH]; intros s Hc; [done|]. cbn [foldl]. apply IH. by apply (core_defer _ _ _ true). Qed.
Lemma qinv_init reqs : qinv reqs (init reqs).
Proof.
  destruct (init_facts reqs (State [root] [] [] 0 Going [])) as (H1 & H2 & H3). fold (init reqs) in *. split.
  - apply core_init. split; cbn [queue next trace]; try (intros; by mem); [constructor|intros; lia|]. intros id. unfold count. simpl. lia.
  - rewrite H2, H3. split; try done.
    + by left.
    + intros id Hin. by destruct (init_trace _ _ Hin).
    + intros id Hin. by destruct (init_trace _ _ Hin).
    + intros t1 y t2 Heq. assert (ERun y ∈ trace (init reqs)) as Hin by (rewrite Heq; mem). by destruct (init_trace _ _ Hin).
    + intros i name Hi. left. unfold init. rewrite init_queue. cbn [queue next]. rewrite app_nil_r, elem_of_reverse. apply elem_of_lookup_imap. exists i, name. done.
Qed.
Lemma qinv_run reqs ls s : canonical getdef → execution getdef reqs ls s → qinv reqs s.
Proof.
  intros Hcan. revert s. induction ls as [|x ls IH] using rev_ind; intros s; [intros [= <-]; apply qinv_init|].
  intros (s1 & Hr & Hs)%run_snoc. eapply qinv_step; [done|by eapply wf_run|by apply IH|done].
Qed.

(** ** The order of deferred functions *)
Lemma call_appends s n name edge : ∃ es, trace (call getdef s n name edge) = trace s ++ es ∧ queue (call getdef s n name edge) = queue s ∧ next (call getdef s n name edge) = next s.
Proof.
  pose proof (call_cases getdef s n name edge) as Hc. destruct (resolve getdef (fuel_for n) (nss s) n name edge []) as [m k v ws| |m k ws|m k proxy ws]; rewrite Hc.
  - destruct (answer_trace (Some v) ws (emit [EGot m k (Some v)] s)) as (es & -> & _). destruct (answer_queue (Some v) ws (emit [EGot m k (Some v)] s)) as [-> ->].
    cbn [emit trace queue next]. rewrite <- (assoc_L (++)). eauto.
  - exists []. by rewrite app_nil_r.
  - destruct (answer_trace None ws (emit [EGot m k None] s)) as (es & -> & _). destruct (answer_queue None ws (emit [EGot m k None] s)) as [-> ->].
    cbn [emit trace queue next]. rewrite <- (assoc_L (++)). eauto.
  - by exists [EBuild m k].
Qed.
Lemma step_queue s x s' : step getdef s x = Some s' → ∃ es, trace s' = trace s ++ es ∧
  ((queue s' = queue s ∧ next s' = next s) ∨
   (∃ fr, x = LDefer fr ∧ es = [EDefer (next s) fr] ∧ next s' = S (next s) ∧ queue s' = if fr : bool then (next s, DUser) :: queue s else queue s ++ [(next s, DUser)]) ∨
   (∃ id kd, x = LNext ∧ queue s = (id, kd) :: queue s' ∧ next s' = next s ∧ ERun id ∈ es)).
Proof.
  intros Hstep. unfold step in Hstep. destruct (status_of s) eqn:Hg; try done. destruct x as [n name edge|n name v|n cn ac|front|r|ok|].
  - destruct (user_code s && _); [|done]. injection Hstep as <-. destruct (call_appends s n name edge) as (es & ? & ? & ?). exists es. split; [done|by left].
  - destruct (user_code s); [|done]. destruct (nss s !! n) as [x|]; [|done].
    destruct (n_accepts x (nd_type v)); [|destruct (n_parent x)]; injection Hstep as <-; [by exists [ENode n name v]; split; [|left]|exists []; rewrite app_nil_r; split; [done|by left]..].
  - destruct (user_code s); [|done]. destruct (nss s !! n) as [x|]; [|done]. case_bool_decide; injection Hstep as <-; exists []; rewrite app_nil_r; (split; [done|by left]).
  - destruct (user_code s); [|done]. injection Hstep as <-. eexists. split; [done|]. right. left. by exists front.
  - destruct (stack s) as [|[n name proxy ws| |] st] eqn:Hst; try done. injection Hstep as <-. unfold finish_build. destruct r as [v|].
    + set (s0 := emit [EGot n name (Some v)] _). destruct (answer_trace (Some v) ws s0) as (es & -> & _). destruct (answer_queue (Some v) ws s0) as [-> ->]. unfold s0. cbn [emit alter_ns trace queue next].
      destruct (is_added _ _ _); [|destruct proxy]; cbn [emit alter_ns set_stack trace queue next]; rewrite <- !(assoc_L (++)); eexists; (split; [done|by left]).
    + set (s0 := emit _ _). destruct (answer_trace None ws s0) as (es & -> & _). destruct (answer_queue None ws s0) as [-> ->]. unfold s0. cbn [emit set_stack trace queue next].
      rewrite <- !(assoc_L (++)); eexists; (split; [done|by left]).
  - destruct (stack s) as [|[|id|] st] eqn:Hst; try done. injection Hstep as <-. eexists. split; [done|by left].
  - destruct (stack s) as [|f st] eqn:Hst; [|done]. destruct (queue s) as [|[id kd] q] eqn:Hq.
    + injection Hstep as <-. exists []. rewrite app_nil_r. split; [done|left; by rewrite <- Hq].
    + destruct kd as [name|]; injection Hstep as <-.
      * set (s1 := State _ _ q _ _ _). destruct (call_appends s1 0 name true) as (es & -> & Hq1 & Hn1). unfold s1 in *. cbn [trace queue next] in *. rewrite <- (assoc_L (++)). eexists. split; [done|].
        right. right. exists id, (DRequest name). rewrite Hq1, Hn1. split; [done|]. split; [done|]. split; [done|mem].
      * eexists. split; [done|]. right. right. exists id, DUser. split; [done|]. split; [done|]. split; [done|mem].
Qed.
Definition ahead q (x y : nat) : Prop := ∃ q1 q2 q3 : list nat, q.*1 = q1 ++ x :: q2 ++ y :: q3.
Definition ordered s x y : Prop := ahead (queue s) x y ∨ (ERun x ∈ trace s ∧ y ∈ (queue s).*1) ∨ before (ERun x) (ERun y) (trace s).
Lemma ordered_step s (l : label) s' x y : step getdef s l = Some s' → ordered s x y → ordered s' x y.
Proof.
  intros (es & Htr & Hcase)%step_queue Ho. unfold ordered. rewrite Htr.
  assert (before (ERun x) (ERun y) (trace s) → before (ERun x) (ERun y) (trace s ++ es)) as Hbef.
  { intros (t1 & t2 & t3 & ->). exists t1, t2, (t3 ++ es). by rewrite <- (assoc_L (++)), <- app_comm_cons, <- (assoc_L (++)), <- app_comm_cons. }
  destruct Ho as [Ha|[[Hx Hy]|Hb]]; [| |right; right; by apply Hbef].
  - destruct Hcase as [[-> _]|[(fr & -> & -> & _ & ->)|(id & kd & -> & Hq & _ & Hin)]]; [by left| |].
    + left. destruct Ha as (q1 & q2 & q3 & Hq). destruct fr.
      * exists (next s :: q1), q2, q3. by rewrite fmap_cons, Hq.
      * exists q1, q2, (q3 ++ [next s]). rewrite fmap_app, Hq. by rewrite <- (assoc_L (++)), <- app_comm_cons, <- (assoc_L (++)), <- app_comm_cons.
    + destruct Ha as (q1 & q2 & q3 & Hq'). rewrite Hq, fmap_cons in Hq'. destruct q1 as [|z q1]; simplify_eq/=.
      * right. left. split; [mem|]. match goal with H : (queue s').*1 = _ |- _ => rewrite H end. mem.
      * left. by exists q1, q2, q3.
  - destruct Hcase as [[-> _]|[(fr & -> & -> & _ & ->)|(id & kd & -> & Hq & _ & Hin)]].
    + right. left. split; [mem|done].
    + right. left. split; [mem|]. destruct fr; [rewrite fmap_cons; by right|rewrite fmap_app; mem].
    + rewrite Hq, fmap_cons in Hy. apply elem_of_cons in Hy as [->|Hy]; [|right; left; split; [mem|done]]. simpl in *. right. right.
      apply elem_of_list_split in Hx as (a1 & a2 & ->). apply elem_of_list_split in Hin as (b1 & b2 & ->). exists a1, (a2 ++ b1), b2. by rewrite <- !(assoc_L (++)), <- app_comm_cons.
Qed.
Lemma ordered_run s ls s' x y : run getdef s ls = Some s' → ordered s x y → ordered s' x y.
Proof.
  revert s. induction ls as [|l ls IH]; intros s; simpl; [by intros [= <-]|]. destruct (step getdef s l) as [s1|] eqn:Hs; [|done]. intros Hr Ho. eapply IH; [done|]. by eapply ordered_step.
Qed.
Lemma ordered_before reqs s x y : qinv reqs s → ordered s x y → ERun y ∈ trace s → before (ERun x) (ERun y) (trace s).
Proof.
  intros [Hc _] Ho Hy. destruct (q_run _ _ _ Hc _ Hy) as [_ Hn]. destruct Ho as [(q1 & q2 & q3 & Hq)|[[_ ?]|?]]; [|done|done]. destruct Hn. rewrite Hq. mem.
Qed.
Lemma back_after reqs ls1 s1 s1' ls2 s2 y fr z : canonical getdef → execution getdef reqs ls1 s1 → EDefer y fr ∈ trace s1 → ERun y ∉ trace s1 →
  step getdef s1 (LDefer false) = Some s1' → trace s1' = trace s1 ++ [EDefer z false] → run getdef s1' ls2 = Some s2 → ERun z ∈ trace s2 → before (ERun y) (ERun z) (trace s2).
Proof.
  intros Hcan Hr Hd Hny Hs Htr Hr2 Hz. pose proof (qinv_run _ _ _ Hcan Hr) as [Hc Hl].
  assert (execution getdef reqs (ls1 ++ LDefer false :: ls2) s2) as Hr'. { unfold execution. rewrite run_app. unfold execution in Hr. rewrite Hr. simpl. by rewrite Hs. }
  eapply ordered_before; [by eapply qinv_run| |done]. eapply ordered_run; [exact Hr2|]. left.
  destruct (q_all _ _ _ Hc y) as [Hq|]; [by eapply q_defer| |done].
  unfold step in Hs. destruct (status_of s1); try done. destruct (user_code s1); [|done]. injection Hs as <-. cbn [defer trace queue] in *. apply app_inv_head in Htr. injection Htr as <-.
  apply elem_of_list_split in Hq as (q1 & q2 & Hq). exists q1, q2, []. rewrite fmap_app, Hq. by rewrite <- (assoc_L (++)), <- app_comm_cons.
Qed.
Lemma front_before reqs ls1 s1 s1' ls2 s2 y fr z : canonical getdef → execution getdef reqs ls1 s1 → EDefer y fr ∈ trace s1 → ERun y ∉ trace s1 →
  step getdef s1 (LDefer true) = Some s1' → trace s1' = trace s1 ++ [EDefer z true] → run getdef s1' ls2 = Some s2 → ERun y ∈ trace s2 → before (ERun z) (ERun y) (trace s2).
Proof.
  intros Hcan Hr Hd Hny Hs Htr Hr2 Hz. pose proof (qinv_run _ _ _ Hcan Hr) as [Hc Hl].
  assert (execution getdef reqs (ls1 ++ LDefer true :: ls2) s2) as Hr'. { unfold execution. rewrite run_app. unfold execution in Hr. rewrite Hr. simpl. by rewrite Hs. }
  eapply ordered_before; [by eapply qinv_run| |done]. eapply ordered_run; [exact Hr2|]. left.
  destruct (q_all _ _ _ Hc y) as [Hq|]; [by eapply q_defer| |done].
  unfold step in Hs. destruct (status_of s1); try done. destruct (user_code s1); [|done]. injection Hs as <-. cbn [defer trace queue] in *. apply app_inv_head in Htr. injection Htr as <-.
  apply elem_of_list_split in Hq as (q1 & q2 & Hq). exists [], q1, q2. rewrite fmap_cons, Hq. done.
Qed.
Lemma imap_fst (reqs : list string) b : (imap (λ i name, (b + i, DRequest name)) reqs).*1 = seq b (length reqs).
Proof.
  revert b. induction reqs as [|r reqs IH]; intros b; [done|]. rewrite imap_cons, fmap_cons. simpl. rewrite Nat.add_0_r. f_equal. rewrite <- IH. f_equal. apply imap_ext. intros i x _. simpl. f_equal. lia.
Qed.
Lemma requests_reversed reqs ls s i j : canonical getdef → execution getdef reqs ls s → i < j → j < length reqs → ERun i ∈ trace s → before (ERun j) (ERun i) (trace s).
Proof.
  intros Hcan Hr Hij Hj Hi. eapply ordered_before; [by eapply qinv_run| |done]. eapply ordered_run; [exact Hr|]. left.
  unfold init. rewrite init_queue. cbn [queue next]. rewrite app_nil_r. exists (reverse (seq (S j) (length reqs - S j))), (reverse (seq (S i) (j - S i))), (reverse (seq 0 i)).
  rewrite fmap_reverse, imap_fst.
  replace (length reqs) with (i + S (j - S i + S (length reqs - S j))) at 1 by lia.
  rewrite seq_app. cbn [seq]. rewrite reverse_app, reverse_cons. rewrite seq_app. rewrite reverse_app. cbn [seq]. rewrite reverse_cons.
  rewrite <- !(assoc_L (++)). simpl. repeat f_equal; lia.
Qed.
(** What is queued, and what it does. *)
Lemma queue_kinds reqs ls s id kd : canonical getdef → execution getdef reqs ls s → (id, kd) ∈ queue s → match reqs !! id with Some name => kd = DRequest name | None => kd = DUser end.
Proof.
  intros Hcan Hr. assert (length reqs ≤ next s ∧ ∀ id kd, (id, kd) ∈ queue s → match reqs !! id with Some name => kd = DRequest name | None => kd = DUser end) as [_ H]; [|by apply H].
  clear id kd. revert s Hr. induction ls as [|x ls IH] using rev_ind; intros s.
  - intros [= <-]. split.
    + unfold init. assert (∀ s, next (foldl (λ s name, defer true (DRequest name) s) s reqs) = next s + length reqs) as ->; [|simpl; lia].
      induction reqs as [|r reqs IH]; intros s; [simpl; lia|]. cbn [foldl]. rewrite IH. simpl. lia.
    + intros id kd. unfold init. rewrite init_queue. cbn [queue next]. rewrite app_nil_r, elem_of_reverse. intros (i & name & [= -> ->] & Hi)%elem_of_lookup_imap_1. simpl. by rewrite Hi.
  - intros (s1 & Hr & Hs)%run_snoc. destruct (IH _ Hr) as [Hn Hq]. apply step_queue in Hs as (es & _ & [[-> ->]|[(fr & _ & _ & -> & ->)|(id0 & kd0 & _ & Hqq & -> & _)]]); [done| |].
    + split; [lia|]. intros id kd Hin. assert ((id, kd) = (next s1, DUser) ∨ (id, kd) ∈ queue s1) as [[= -> ->]|?]; [destruct fr; mem| |by apply Hq]. by rewrite lookup_ge_None_2.
    + split; [done|]. intros id kd Hin. apply Hq. rewrite Hqq. by right.
Qed.
Lemma request_asks reqs ls s s' i name : canonical getdef → execution getdef reqs ls s → step getdef s LNext = Some s' → reqs !! i = Some name → ERun i ∉ trace s → ERun i ∈ trace s' →
  ∃ es, trace s' = trace s ++ ERun i :: es ∧ ((∃ r, EGot 0 name r ∈ es) ∨ (∃ c, home getdef (nss s) 0 name 0 c ∧ es = [EBuild 0 c]) ∨ (es = [] ∧ status_of s' = Panicked)).
Proof.
  intros Hcan Hr Hs Hi Hn Hin. pose proof (wf_run _ _ _ _ Hcan Hr) as Hw. pose proof (queue_kinds _ _ _ i (DRequest name) Hcan Hr) as Hkind.
  unfold step in Hs. destruct (status_of s); try done. destruct (stack s); [|done]. destruct (queue s) as [|[id kd] q] eqn:Hq; [injection Hs as <-; done|].
  pose proof (queue_kinds _ _ _ id kd Hcan Hr) as Hk. rewrite Hq in Hk. specialize (Hk ltac:(by left)).
  assert (id = i) as ->.
  { destruct kd as [name'|]; injection Hs as <-.
    - set (s1 := State _ _ q _ _ _) in *.
      pose proof (call_cases getdef s1 0 name' true) as Hcc.
      assert (∀ e, e ∈ trace (call getdef s1 0 name' true) → e ∈ trace s1 ∨ match e with ERun _ => False | _ => True end) as Hno.
      { destruct (resolve getdef (fuel_for 0) (nss s1) 0 name' true []) as [m k v ws| |m k ws|m k proxy ws]; rewrite Hcc.
        - destruct (answer_quiet (Some v) ws (emit [EGot m k (Some v)] s1)) as (es & -> & Hes). intros e [He|He]%elem_of_app; [|right; apply Hes in He; by destruct e].
          apply elem_of_app in He as [He|He]; [by left|]. right. by apply elem_of_list_singleton in He as ->.
        - intros e He. by left.
        - destruct (answer_quiet None ws (emit [EGot m k None] s1)) as (es & -> & Hes). intros e [He|He]%elem_of_app; [|right; apply Hes in He; by destruct e].
          apply elem_of_app in He as [He|He]; [by left|]. right. by apply elem_of_list_singleton in He as ->.
        - intros e [He|He]%elem_of_app; [by left|]. right. by apply elem_of_list_singleton in He as ->. }
      apply Hno in Hin as [Hin|?]; [|done]. apply elem_of_app in Hin as [?|Hin]; [done|]. apply elem_of_list_singleton in Hin. congruence.
    - simpl in Hin. apply elem_of_app in Hin as [?|Hin]; [done|]. apply elem_of_list_singleton in Hin. congruence. }
  rewrite Hi in Hk. subst kd. injection Hs as <-. set (s1 := State _ _ q _ _ _) in *.
  assert (wf getdef s1) as Hw1. { eapply wf_skel; [| |exact Hw]; [done|]. simpl. intros f Hf. right. apply elem_of_list_singleton in Hf as ->. eauto. }
  assert (0 < length (nss s)) as Hlen by (destruct (f_root _ _ Hw) as (x & Hx & _); by apply lookup_lt_Some in Hx).
  pose proof (call_cases getdef s1 0 name true) as Hcc. pose proof (resolve_spec getdef (fuel_for 0) (nss s1) 0 name true [] (f_older _ _ Hw1) Hlen Hcan) as Hr1.
  destruct (resolve getdef (fuel_for 0) (nss s1) 0 name true []) as [m k v ws| |m k ws|m k proxy ws]; rewrite Hcc.
  - destruct Hr1 as (new & -> & G1 & G2 & G3 & G4 & G5 & _). rewrite app_nil_r in *. destruct (answer_trace (Some v) new (emit [EGot m k (Some v)] s1)) as (es & -> & Hgot).
    cbn [emit s1 trace]. rewrite <- !(assoc_L (++)). eexists. split; [done|]. left. exists (Some v). eapply ends_got; [exact G5|mem|]. intros w Hww. apply elem_of_app. right. by apply Hgot.
  - exists []. split; [done|]. right. right. done.
  - destruct Hr1 as (new & -> & G2 & G3 & G4 & G5). rewrite app_nil_r in *. destruct (answer_trace None new (emit [EGot m k None] s1)) as (es & -> & Hgot).
    cbn [emit s1 trace]. rewrite <- !(assoc_L (++)). eexists. split; [done|]. left. exists None. eapply ends_got; [exact G5|mem|]. intros w Hww. apply elem_of_app. right. by apply Hgot.
  - destruct Hr1 as (new & -> & G1 & G2 & G3 & G4 & G5 & G6 & G7 & G8 & (d & Hd & Hk)). rewrite app_nil_r in *. cbn [emit set_stack s1 trace]. rewrite <- !(assoc_L (++)). eexists. split; [done|]. right. left.
    assert (m = 0) as ->.
    { destruct (f_root _ _ Hw) as (x & Hx & Hacc & _). destruct new as [|w0 new0 _] using rev_ind; [by injection G6|].
      rewrite ends_app_cons in G6. injection G6 as Hn0 Hk0. apply Forall_app in G5 as [_ [G5 _]%Forall_cons_1]. destruct G5 as (d0 & Hd0 & _ & Hnear). rewrite Hn0 in Hnear.
      inversion Hnear as [? ? ? ?|? ? ? ? Hx' Hacc']; [done|]. cbn [s1 nss] in *. rewrite Hx in *. simplify_eq. by rewrite Hacc in *. }
    exists k. split; [|done]. exists d. split; [done|]. split; [done|]. destruct (f_root _ _ Hw) as (x & Hx & Hacc & _). eapply near_here; [exact Hx|]. by rewrite Hacc.
Qed.
Lemma done_all reqs ls s : canonical getdef → execution getdef reqs ls s → status_of s = Done →
  (∀ id fr, EDefer id fr ∈ trace s → ERun id ∈ trace s ∧ EEnd id true ∈ trace s ∧ ∀ i1 i2, trace s !! i1 = Some (ERun id) → trace s !! i2 = Some (ERun id) → i1 = i2) ∧
  (∀ id, EEnd id false ∉ trace s) ∧
  (∀ name, name ∈ reqs → ∃ v, EGot 0 name (Some v) ∈ trace s).
Proof.
  intros Hcan Hr Hd. pose proof (qinv_run _ _ _ Hcan Hr) as [Hc Hl]. rewrite Hd in Hl. destruct (c_done _ _ _ _ _ Hl eq_refl) as [Hst Hq].
  assert (∀ id, EEnd id false ∉ trace s) as Hnf by (intros id Hin; by apply (c_false _ _ _ _ _ Hl) in Hin as [? _]).
  split; [|split; [done|]].
  - intros id fr Hin%(q_defer _ _ _ Hc). apply (q_all _ _ _ Hc) in Hin as [Hin|Hin]; [rewrite Hq in Hin; by apply elem_of_nil in Hin|]. split; [done|]. split.
    + destruct (c_ended _ _ _ _ _ Hl _ Hin) as [?|[?%Hnf|(pre & f & Heq & _)]]; [done|done|]. rewrite Hst in Heq. by destruct pre.
    + intros i1 i2 H1 H2. eapply (count_le_one_eq (isrun id)); [apply (q_once _ _ _ Hc)|exact H1|exact H2|done|done].
  - intros name [i Hi]%elem_of_list_lookup_1. destruct (c_req _ _ _ _ _ Hl _ _ Hi) as [Hx|[(pre & m & k & pr & ws & Hfs & _)|[?|[?|?]]]]; [|rewrite Hst in Hfs; by destruct pre|done|done|done].
    rewrite Hq in Hx. by apply elem_of_nil in Hx.
Qed.
Lemma run_once reqs ls s id : canonical getdef → execution getdef reqs ls s → ∀ i1 i2, trace s !! i1 = Some (ERun id) → trace s !! i2 = Some (ERun id) → i1 = i2.
Proof. intros Hcan Hr i1 i2 H1 H2. pose proof (qinv_run _ _ _ Hcan Hr) as [Hc Hl]. eapply (count_le_one_eq (isrun id)); [apply (q_once _ _ _ Hc)|exact H1|exact H2|done|done]. Qed.
Lemma failed_last reqs ls s : canonical getdef → execution getdef reqs ls s →
  (status_of s = Failed → ∃ id, last (trace s) = Some (EEnd id false)) ∧ (∀ id, EEnd id false ∈ trace s → status_of s = Failed ∧ last (trace s) = Some (EEnd id false)).
Proof. intros Hcan Hr. pose proof (qinv_run _ _ _ Hcan Hr) as [Hc Hl]. split; [apply (c_failed _ _ _ _ _ Hl)|apply (c_false _ _ _ _ _ Hl)]. Qed.
Lemma one_at_a_time reqs ls s x y : canonical getdef → execution getdef reqs ls s → before (ERun x) (ERun y) (trace s) → ∃ t1 t2, trace s = t1 ++ ERun y :: t2 ∧ EEnd x true ∈ t1.
Proof.
  intros Hcan Hr (t1 & t2 & t3 & Ht). pose proof (qinv_run _ _ _ Hcan Hr) as [Hc Hl]. exists (t1 ++ ERun x :: t2), t3. split; [by rewrite Ht, <- (assoc_L (++))|].
  eapply (c_seq _ _ _ _ _ Hl _ y t3); [by rewrite Ht, <- (assoc_L (++))|mem].
Qed.
End queue.
