(** * Proofs about building a deployment *)
From Verif Require Export Deploy_Spec.
From stdpp Require Export gmap list.

(** ** More fuel changes nothing *)
Section mono.
  Context (c : cfg).
  Definition le_res (a b : res) : Prop := a = Out ∨ a = b.
  Lemma le_res_refl a : le_res a a.
  Proof. by right. Qed.
  Lemma le_andthen a b k k' :
    le_res a b → (∀ r s, le_res (k r s) (k' r s)) → le_res (andthen a k) (andthen b k').
  Proof. intros [->| ->] H; [by left|]. destruct b; simpl; [apply H|by right|by left]. Qed.
  Definition le_get (g g' : space → nm → bool → st → res) : Prop :=
    ∀ p n e s, le_res (g p n e s) (g' p n e s).
  Lemma le_getl g g' p ns s k k' :
    le_get g g' → (∀ rs s, le_res (k rs s) (k' rs s)) → le_res (getl g p ns s k) (getl g' p ns s k').
  Proof.
    intros Hg. revert s k k'. induction ns as [|n ns IH]; intros s k k' Hk; simpl; [apply Hk|].
    apply le_andthen; [apply Hg|]. intros r s1. apply IH. intros rs s2. apply Hk.
  Qed.
  Lemma le_build g g' p n s : le_get g g' → le_res (build c g p n s) (build c g' p n s).
  Proof.
    intros Hg. destruct n; unfold build;
      try (apply le_res_refl); try (apply Hg);
      try (apply le_getl; [done|]; intros; apply le_res_refl).
    - apply le_andthen; [apply Hg|]. intros _ s1. destruct (claimed i s1); [by right|].
      apply le_andthen; [apply Hg|]. intros; apply le_res_refl.
    - apply le_andthen; [apply Hg|]. intros _ s1. destruct (spaces s1 !! _); [apply Hg|by right].
    - destruct (derive q s); [|by right].
      apply le_getl; [done|]. intros; apply le_res_refl.
  Qed.
  Lemma le_get_S f : le_get (get c f) (get c (S f)).
  Proof.
    induction f as [|f IH]; intros p n e s; [by left|].
    change (get c (S f) p n e s) with
      (match spaces s !! p with None => Err s | Some x => match seen x !! n with Some r => Ok r s
       | None => if decide (resolve c n ≠ n) then
          andthen (get c f p (resolve c n) e s) (λ r s1, Ok r (see p n r s1))
        else if accepts p n then andthen (build c (get c f) p n s)
            (λ r s1, Ok r (see p n r (set_spaces (alter (got_node n r) p) s1)))
        else andthen (get c f None n e s)
            (λ r s1, Ok r (see p n r (set_spaces (alter (got_edge n e r) p) s1))) end end).
    change (get c (S (S f)) p n e s) with
      (match spaces s !! p with None => Err s | Some x => match seen x !! n with Some r => Ok r s
       | None => if decide (resolve c n ≠ n) then
          andthen (get c (S f) p (resolve c n) e s) (λ r s1, Ok r (see p n r s1))
        else if accepts p n then andthen (build c (get c (S f)) p n s)
            (λ r s1, Ok r (see p n r (set_spaces (alter (got_node n r) p) s1)))
        else andthen (get c (S f) None n e s)
            (λ r s1, Ok r (see p n r (set_spaces (alter (got_edge n e r) p) s1))) end end).
    destruct (spaces s !! p) as [x|]; [|by right]. destruct (seen x !! n); [by right|].
    destruct (decide _); [apply le_andthen; [apply IH|intros; apply le_res_refl]|].
    destruct (accepts p n).
    - apply le_andthen; [by apply le_build|]. intros; apply le_res_refl.
    - apply le_andthen; [apply IH|]. intros; apply le_res_refl.
  Qed.
  Lemma le_get_le f f' : f ≤ f' → le_get (get c f) (get c f').
  Proof.
    induction 1 as [|f' H IH]; intros p n e s; [by right|].
    destruct (IH p n e s) as [->| ->]; [by left|]. apply le_get_S.
  Qed.
  Lemma le_run_job f f' j s : f ≤ f' → le_res (run_job c f j s) (run_job c f' j s).
  Proof.
    intros Hf. pose proof (le_get_le _ _ Hf) as Hg. unfold run_job. destruct j.
    - apply le_getl; [done|]. intros; apply le_res_refl.
    - apply le_getl; [done|]. intros; apply le_res_refl.
    - apply le_andthen; [apply Hg|]. intros r s1. destruct (r.2); try apply le_res_refl.
      destruct (served s1 !! i); [by right|].
      destruct (Hg p (dst_modifier0 c i) false s1) as [->| ->]; [by left|by right].
  Qed.
  Lemma le_run f f' k k' s : f ≤ f' → k ≤ k' → le_res (run c f k s) (run c f' k' s).
  Proof.
    intros Hf. revert k' s. induction k as [|k IH]; intros k' s Hk.
    - simpl. destruct (queue s) eqn:E; [|by left]. destruct k'; simpl; rewrite E; by right.
    - destruct k' as [|k']; [lia|]. simpl. destruct (queue s); [by right|].
      apply le_andthen; [by apply le_run_job|]. intros _ s1. apply IH. lia.
  Qed.
  Lemma run_more f f' k k' s r s' : run c f k s = Ok r s' → f ≤ f' → k ≤ k' → run c f' k' s = Ok r s'.
  Proof. intros E Hf Hk. destruct (le_run f f' k k' s Hf Hk) as [H|H]; congruence. Qed.
End mono.

Section proof.
  Context (c : cfg) (roots : list nat) (WF : well_formed c roots).
  Local Notation lives := (lives c).
  Local Notation uses := (uses c).
  Local Notation needed := (needed c roots).
  Local Notation home := (c_home c).
  Local Notation remote := (c_remote c).
  Local Notation resolve := (resolve c).

  (** The definition whose build function makes the node that getting [n] gives. *)
  Definition canon (n : nm) : nm :=
    match resolve (match n with Svc i => SrcHead i | _ => n end) with
    | Check i => Handler i
    | Enter i => Server i
    | m => m end.
  (** The node that getting [n] in [p] gives. *)
  Definition rf (p : space) (n : nm) : ref :=
    match n with
    | Enter i => (Some (home i), Server i)
    | _ => (if golang (canon n) then p else None, canon n) end.
  (** What the build function of [n] gets, from the same namespace. *)
  Definition deps (n : nm) : list nm :=
    match n with
    | Src i k => [SrcNext i k]
    | RpcClient i => [RpcNext i; Dial i]
    | Server i => [dst_head c i; Addr i; Bind i]
    | Dst i k => [dst_below i k]
    | Handler i => Svc <$> c_args c i
    | _ => [] end.
  Definition reqs (n : nm) : list nm :=
    match n with
    | SrcHead _ | SrcNext _ _ | RpcNext _ | DstName _ => [resolve n]
    | Svc i => [SrcHead i]
    | Check i => [Vis i; Handler i]
    | _ => deps n end.
  Definition holds (p : space) (n : nm) : list ref :=
    match n with
    | Proc q => [(Some q, Metric q); (Some q, Logger q)]
    | _ => rf p <$> deps n end.

  (** What may be asked for in a process, and in the application. *)
  Definition asksq (q : nat) (n : nm) : Prop :=
    match n with
    | Metric q' | Logger q' => q' = q
    | Server i | Bind i => i ∈ c_children c q
    | Dst i k => lives q i ∧ k < c_ndst c i
    | DstName i | Check i | Vis i | Handler i => lives q i
    | Addr i => i ∈ c_children c q ∨ (uses q i ∧ remote i = true)
    | Dial j | RpcClient j | RpcNext j => uses q j ∧ remote j = true
    | Svc j | SrcHead j => uses q j
    | Src j k | SrcNext j k => uses q j ∧ k < c_nsrc c j
    | Enter j => uses q j ∧ remote j = true ∧ home j ≠ q
    | Proc _ => False end.
  Definition asks (p : space) (n : nm) : Prop :=
    match p with
    | Some q => asksq q n
    | None => match n with
              | Proc q => needed q
              | Addr _ | Dial _ | Bind _ | Vis _ | Enter _ => ∃ q, needed q ∧ asksq q n
              | _ => False end end.

  Lemma src_at_cases i k :
    (k < c_nsrc c i ∧ src_at c i k = Src i k) ∨
    (c_nsrc c i ≤ k ∧ remote i = true ∧ src_at c i k = RpcClient i) ∨
    (c_nsrc c i ≤ k ∧ remote i = false ∧ src_at c i k = dst_head c i).
  Proof.
    unfold src_at, iface. destruct (decide _); [auto|].
    destruct (remote i); [right; left|right; right]; split_and!; auto; lia.
  Qed.
  Lemma dst_head_cases i :
    (c_ndst c i = 0 ∧ dst_head c i = DstName i) ∨
    (∃ k, c_ndst c i = S k ∧ dst_head c i = Dst i k).
  Proof. unfold dst_head. destruct (c_ndst c i); simpl; eauto. Qed.

  Lemma resolve_src_at i k :
    resolve (src_at c i k) = match src_at c i k with DstName i => Check i | m => m end.
  Proof.
    destruct (src_at_cases i k) as [(_&->)|[(_&_&->)|(_&_&->)]]; try done.
    destruct (dst_head_cases i) as [(_&->)|(?&_&->)]; done.
  Qed.
  Lemma alias_src_at i k m : alias c (src_at c i k) = Some m → src_at c i k = DstName i ∧ m = Check i.
  Proof.
    destruct (src_at_cases i k) as [(_&->)|[(_&_&->)|(_&_&->)]]; try done.
    destruct (dst_head_cases i) as [(_&->)|(?&_&->)]; simpl; naive_solver.
  Qed.
  Lemma resolve_head i : resolve (SrcHead i) = match src_at c i 0 with DstName i => Check i | m => m end.
  Proof.
    unfold Deploy_Model.resolve; simpl.
    destruct (src_at_cases i 0) as [(_&->)|[(_&_&->)|(_&_&->)]]; try done.
    destruct (dst_head_cases i) as [(_&->)|(?&_&->)]; done.
  Qed.
  Lemma resolve_next i k :
    resolve (SrcNext i k) = match src_at c i (S k) with DstName i => Check i | m => m end.
  Proof.
    unfold Deploy_Model.resolve; simpl.
    destruct (src_at_cases i (S k)) as [(_&->)|[(_&_&->)|(_&_&->)]]; try done.
    destruct (dst_head_cases i) as [(_&->)|(?&_&->)]; done.
  Qed.

  (** Resolving is done after one go. *)
  Lemma resolve_resolve n : resolve (resolve n) = resolve n.
  Proof.
    destruct n; try done.
    - rewrite resolve_head. destruct (src_at_cases i 0) as [(_&->)|[(_&_&->)|(_&_&->)]]; try done.
      destruct (dst_head_cases i) as [(_&->)|(?&_&->)]; done.
    - rewrite resolve_next. destruct (src_at_cases i (S k)) as [(_&->)|[(_&_&->)|(_&_&->)]]; try done.
      destruct (dst_head_cases i) as [(_&->)|(?&_&->)]; done.
    - unfold Deploy_Model.resolve at 2 3; simpl. unfold iface.
      destruct (remote i); [done|].
      destruct (dst_head_cases i) as [(_&->)|(?&_&->)]; done.
  Qed.
  Lemma canon_resolve n : canon (resolve n) = canon n.
  Proof.
    unfold canon. destruct (decide (resolve n = n)) as [->|H]; [done|].
    assert (match n with Svc i => SrcHead i | _ => n end = n) as -> by by destruct n.
    assert (∀ i, resolve n ≠ Svc i) as Hs.
    { intros i. destruct n; try done.
      - rewrite resolve_head. destruct (src_at_cases i0 0) as [(_&->)|[(_&_&->)|(_&_&->)]]; try done.
        destruct (dst_head_cases i0) as [(_&->)|(?&_&->)]; done.
      - rewrite resolve_next. destruct (src_at_cases i0 (S k)) as [(_&->)|[(_&_&->)|(_&_&->)]]; try done.
        destruct (dst_head_cases i0) as [(_&->)|(?&_&->)]; done.
      - unfold Deploy_Model.resolve; simpl. unfold iface. destruct (remote i0); [done|].
        destruct (dst_head_cases i0) as [(_&->)|(?&_&->)]; done. }
    assert (match resolve n with Svc i => SrcHead i | _ => resolve n end = resolve n) as ->.
    { specialize (Hs). destruct (resolve n); try done. by destruct (Hs i). }
    by rewrite resolve_resolve.
  Qed.

  Lemma canon_head i : canon (SrcHead i) = match src_at c i 0 with DstName i => Handler i | m => m end.
  Proof.
    unfold canon. rewrite resolve_head. destruct (src_at_cases i 0) as [(_&->)|[(_&_&->)|(_&_&->)]]; try done.
    destruct (dst_head_cases i) as [(_&->)|(?&_&->)]; done.
  Qed.
  Lemma canon_svc i : canon (Svc i) = canon (SrcHead i).
  Proof. done. Qed.
  Lemma canon_next i k : canon (SrcNext i k) = match src_at c i (S k) with DstName i => Handler i | m => m end.
  Proof.
    unfold canon. rewrite resolve_next.
    destruct (src_at_cases i (S k)) as [(_&->)|[(_&_&->)|(_&_&->)]]; try done.
    destruct (dst_head_cases i) as [(_&->)|(?&_&->)]; done.
  Qed.
  Lemma canon_rpc i : remote i = true → canon (RpcNext i) = Addr i.
  Proof. intros H. unfold canon, Deploy_Model.resolve; simpl. unfold iface. by rewrite H. Qed.
  Lemma canon_dst i : canon (DstName i) = Handler i.
  Proof. done. Qed.
  (** The kinds of nodes that a client modifier can be followed by. *)
  Definition clientish (n : nm) : Prop :=
    match n with Src _ _ | RpcClient _ | Dst _ _ | Handler _ => True | _ => False end.
  Lemma clientish_src_at i k : clientish (match src_at c i k with DstName i => Handler i | m => m end).
  Proof.
    destruct (src_at_cases i k) as [(_&->)|[(_&_&->)|(_&_&->)]]; try done.
    destruct (dst_head_cases i) as [(_&->)|(?&_&->)]; done.
  Qed.
  Lemma canon_kind q n :
    asksq q n →
    clientish (canon n) ∨ n = canon n ∨ (∃ i, n = RpcNext i ∧ canon n = Addr i) ∨
    (∃ i, n = Enter i ∧ canon n = Server i).
  Proof.
    destruct n; simpl; intros H; try (by right; left); try (by left).
    - left. rewrite canon_svc, canon_head. apply clientish_src_at.
    - left. rewrite canon_head. apply clientish_src_at.
    - left. rewrite canon_next. apply clientish_src_at.
    - right; right; left. exists i. split; [done|]. apply canon_rpc. tauto.
    - right; right; right. eauto.
  Qed.
  Lemma asks_kind p n :
    asks p n →
    clientish (canon n) ∨ n = canon n ∨ (∃ i, n = RpcNext i ∧ canon n = Addr i) ∨
    (∃ i, n = Enter i ∧ canon n = Server i).
  Proof.
    destruct p as [q|]; [apply canon_kind|].
    destruct n; simpl; try done; try (by right; left).
    right; right; right. eauto.
  Qed.

  Lemma canon_is_server p n i : asks p n → canon n = Server i → n = Server i ∨ n = Enter i.
  Proof.
    intros H E. apply asks_kind in H as [H|[H|[(j&->&H)|(j&->&H)]]]; rewrite E in H; try done; [by left|].
    right. by simplify_eq.
  Qed.
  Lemma canon_is_dial p n i : asks p n → canon n = Dial i → n = Dial i.
  Proof.
    intros H E. by apply asks_kind in H as [H|[H|[(j&->&H)|(j&->&H)]]]; rewrite E in H.
  Qed.
  Lemma canon_is_bind p n i : asks p n → canon n = Bind i → n = Bind i.
  Proof.
    intros H E. by apply asks_kind in H as [H|[H|[(j&->&H)|(j&->&H)]]]; rewrite E in H.
  Qed.

  Definition is_alias (n : nm) : Prop :=
    match n with SrcHead _ | SrcNext _ _ | RpcNext _ | DstName _ => True | _ => False end.
  Lemma resolve_alias n : resolve n ≠ n → is_alias n.
  Proof. destruct n; done. Qed.
  Lemma alias_resolve n : is_alias n → resolve n ≠ n.
  Proof.
    destruct n; try done; intros _.
    - rewrite resolve_head. destruct (src_at_cases i 0) as [(_&->)|[(_&_&->)|(_&_&->)]]; try done.
      destruct (dst_head_cases i) as [(_&->)|(?&_&->)]; done.
    - rewrite resolve_next. destruct (src_at_cases i (S k)) as [(_&->)|[(_&_&->)|(_&_&->)]]; try done.
      destruct (dst_head_cases i) as [(_&->)|(?&_&->)]; done.
    - unfold Deploy_Model.resolve; simpl. unfold iface. destruct (remote i); [done|].
      destruct (dst_head_cases i) as [(_&->)|(?&_&->)]; done.
  Qed.
  Lemma rf_alias p n : is_alias n → rf p (resolve n) = rf p n.
  Proof.
    intros Ha. unfold rf. rewrite canon_resolve.
    destruct n; try done.
    - rewrite resolve_head. destruct (src_at_cases i 0) as [(_&->)|[(_&_&->)|(_&_&->)]]; try done.
      destruct (dst_head_cases i) as [(_&->)|(?&_&->)]; done.
    - rewrite resolve_next. destruct (src_at_cases i (S k)) as [(_&->)|[(_&_&->)|(_&_&->)]]; try done.
      destruct (dst_head_cases i) as [(_&->)|(?&_&->)]; done.
    - unfold Deploy_Model.resolve; simpl. unfold iface. destruct (remote i); [done|].
      destruct (dst_head_cases i) as [(_&->)|(?&_&->)]; done.
  Qed.

  Lemma uses_local_lives q j : uses q j → remote j = false → lives q j.
  Proof. intros (i&Hl&Hj) H. by eapply lives_part. Qed.
  Lemma asks_dst_below q i k : lives q i → k ≤ c_ndst c i → asksq q (dst_below i k).
  Proof. intros H Hk. destruct k; simpl; [done|]. split; [done|lia]. Qed.
  Lemma asks_dst_head q i : lives q i → asksq q (dst_head c i).
  Proof. intros H. by apply asks_dst_below. Qed.
  Lemma asks_src_at q j k :
    uses q j → asksq q (match src_at c j k with DstName i => Check i | m => m end).
  Proof.
    intros H. destruct (src_at_cases j k) as [(?&->)|[(_&?&->)|(_&?&->)]]; simpl; try done.
    assert (lives q j) as Hl by by apply uses_local_lives.
    destruct (dst_head_cases j) as [(_&->)|(k'&E&->)]; simpl; [done|]. split; [done|lia].
  Qed.
  Lemma asks_resolve p n : is_alias n → asks p n → asks p (resolve n).
  Proof.
    destruct p as [q|]; [|by destruct n].
    destruct n; try done; simpl; intros _ H.
    - rewrite resolve_head. by apply asks_src_at.
    - rewrite resolve_next. apply asks_src_at. tauto.
    - unfold Deploy_Model.resolve; simpl. unfold iface. destruct H as [H1 H2]. rewrite H2. simpl. auto.
  Qed.
  Lemma lives_args q i j : lives q i → j ∈ c_args c i → uses q j.
  Proof. by exists i. Qed.
  Lemma asks_reqs q n n' : asksq q n → n' ∈ reqs n → asksq q n'.
  Proof using WF.
    intros H Hn. destruct n; simpl in Hn;
      repeat (apply elem_of_cons in Hn as [->|Hn] || by apply elem_of_nil in Hn);
      try (by apply (asks_resolve (Some q))); simpl in *; try tauto.
    - apply asks_dst_head. by apply lives_child.
    - apply asks_dst_below; [tauto|lia].
    - apply elem_of_list_fmap in Hn as (j&->&Hj). simpl. by apply (lives_args _ i).
  Qed.

  Lemma canon_reqs n :
    resolve n = n → canon n ≠ n → (∀ i, n ≠ Enter i) → ∃ n', n' ∈ reqs n ∧ canon n' = canon n.
  Proof.
    intros H1 H2 H3. destruct n; try done; try (by exfalso; eapply alias_resolve; [|exact H1]).
    - exists (SrcHead i). split; [|done]. simpl. set_solver.
    - exists (Handler i). split; [|done]. simpl. set_solver.
    - by destruct (H3 i).
  Qed.
  Lemma golang_canon n : resolve n = n → (∀ i, n ≠ Enter i) → golang (canon n) = golang n.
  Proof.
    intros H1 H3. destruct n; try done; try (by exfalso; eapply alias_resolve; [|exact H1]).
    - rewrite canon_svc, canon_head. pose proof (clientish_src_at i 0) as H.
      destruct (match src_at c i 0 with DstName i => Handler i | m => m end); done.
    - by destruct (H3 i).
  Qed.
  Lemma asks_up q n : needed q → asksq q n → resolve n = n → golang n = false → asks None n.
  Proof. intros Hq H Hr Hg. destruct n; try done; simpl in *; eauto. Qed.

  (** ** One namespace *)
  Definition is_edge (n : nm) : Prop := match n with Dial _ | Bind _ => True | _ => False end.
  Record okspace (p : space) (x : nspace) (h : gmap ref (list ref)) : Prop := {
    k_seen n r : seen x !! n = Some r → r = rf p n ∧ asks p n ∧ is_Some (h !! r);
    k_reqs n n' : is_Some (seen x !! n) → n' ∈ reqs n → is_Some (seen x !! n');
    k_node n : is_Some (seen x !! n) → is_proxy n = false → golang (canon n) = true ∨ p = None →
      rf p n ∈ nodes x;
    k_nodes r : r ∈ nodes x →
      ∃ n, is_Some (seen x !! n) ∧ canon n = n ∧ is_proxy n = false ∧ accepts p n = true ∧ r = (p, n);
    k_nodup : NoDup (nodes x);
    k_added n : is_Some (seen x !! n) → canon n ∈ added x;
    k_adds m : m ∈ added x → ∃ n, is_Some (seen x !! n) ∧ canon n = m;
    k_edge n : p ≠ None → is_Some (seen x !! n) → is_edge n → rf p n ∈ edges x;
    k_edges r : r ∈ edges x → ∃ n, is_Some (seen x !! n) ∧ is_edge n ∧ r = (None, n) ∧ p ≠ None;
    k_enodup : NoDup (edges x) }.

  Definition put (n : nm) (r : ref) (x : nspace) : nspace :=
    Nspace (<[n := r]> (seen x)) (added x) (nodes x) (edges x).

  Lemma put_some (n : nm) (r : ref) (m : gmap nm ref) n' :
    is_Some (m !! n') → is_Some (<[n := r]> m !! n').
  Proof. intros. destruct (decide (n = n')) as [->|]; [by rewrite lookup_insert|by rewrite lookup_insert_ne]. Qed.
  Lemma put_inv (n : nm) (r : ref) (m : gmap nm ref) n' :
    is_Some (<[n := r]> m !! n') → n' = n ∨ is_Some (m !! n').
  Proof. destruct (decide (n = n')) as [->|]; [by left|rewrite lookup_insert_ne by done; by right]. Qed.

  Lemma rf_fst p n : accepts p n = true → resolve n = n → is_proxy n = false → rf p n = (p, canon n).
  Proof.
    intros Ha Hr Hp. assert (∀ i, n ≠ Enter i) as He by by intros i ->.
    pose proof (golang_canon n Hr He) as Hg. unfold rf.
    destruct p as [q|]; simpl in Ha.
    - rewrite Hg, Ha. by destruct n.
    - destruct n; try done; by destruct (golang _).
  Qed.
  Lemma rf_snd p n : (rf p n).2 = canon n.
  Proof. by destruct n. Qed.

  Lemma ok_node p x h n :
    okspace p x h → resolve n = n → accepts p n = true → asks p n →
    (∀ n', n' ∈ reqs n → is_Some (seen x !! n')) → is_Some (h !! rf p n) →
    okspace p (put n (rf p n) (got_node n (rf p n) x)) h.
  Proof using WF.
    intros K Hr Ha Hk Hreq Hh. unfold got_node. rewrite rf_snd.
    assert (canon n ∈ added x → is_proxy n = false → rf p n ∈ nodes x) as Hin.
    { intros Hin Hp. destruct (k_adds _ _ _ K _ Hin) as (n'&Hs&Hc).
      destruct Hs as [r' Hs]. pose proof (k_seen _ _ _ K _ _ Hs) as (->&Hk'&_).
      assert (is_proxy n' = false) as Hp'.
      { destruct n'; try done.
        change (canon (Enter i)) with (Server i) in Hc.
        destruct (canon_is_server _ _ i Hk) as [->| ->]; try done.
        exfalso. destruct p as [q|]; [|done]. simpl in *.
        destruct (wf_children _ _ WF q i Hk) as [_ <-]. naive_solver. }
      assert (golang (canon n) = true ∨ p = None) as Hg.
      { destruct p as [q|]; [left|by right]. rewrite golang_canon; [done..|]. by intros i ->. }
      assert (rf p n' = rf p n) as <-.
      { unfold rf. rewrite Hc. destruct n', n; try done. }
      apply (k_node _ _ _ K); [eauto|done|by rewrite Hc]. }
    assert (canon n ∉ added x → ∀ n', is_Some (seen x !! n') → canon n' ≠ canon n) as Hout.
    { intros Hout n' Hs E. apply Hout. rewrite <-E. by apply (k_added _ _ _ K). }
    split; unfold put; simpl.
    - intros n' r Hs. apply lookup_insert_Some in Hs as [[<- <-]|[_ Hs]]; [done|].
      assert (seen x !! n' = Some r) as Hs' by by destruct (decide _).
      by apply (k_seen _ _ _ K).
    - intros n' m Hs Hm.
      assert (seen (if decide (canon n ∈ added x) then x
        else Nspace (seen x) ({[canon n]} ∪ added x)
               (if is_proxy n then nodes x else nodes x ++ [rf p n]) (edges x)) = seen x) as E
        by by destruct (decide _).
      rewrite E in *. apply put_some. apply put_inv in Hs as [->|Hs]; [by apply Hreq|].
      by eapply (k_reqs _ _ _ K).
    - intros n' Hs Hp Hg. destruct (decide _) as [Hi|Hi]; simpl in *.
      + apply put_inv in Hs as [->|Hs]; [by apply Hin|]. by apply (k_node _ _ _ K).
      + apply put_inv in Hs as [->|Hs].
        * rewrite Hp. set_solver.
        * pose proof (k_node _ _ _ K n' Hs Hp Hg). destruct (is_proxy n); set_solver.
    - intros r Hr'.
      assert (r ∈ nodes x ∨ (canon n ∉ added x ∧ is_proxy n = false ∧ r = rf p n)) as [Hx|(Hx&Hp&->)].
      { destruct (decide _); simpl in *; [by left|]. destruct (is_proxy n); [by left|]. set_solver. }
      + destruct (k_nodes _ _ _ K _ Hx) as (m&Hs&?). exists m. split; [|done].
        apply put_some. by destruct (decide _).
      + exists n. rewrite lookup_insert. split; [eauto|].
        assert (canon n = n) as E.
        { destruct (decide (canon n = n)) as [|Hne]; [done|exfalso].
          destruct (canon_reqs n Hr Hne) as (m&Hm&E); [by intros i ->|].
          by apply (Hout Hx m (Hreq _ Hm)). }
        split_and!; try done. rewrite rf_fst by done. by rewrite E.
    - destruct (decide _) as [Hi|Hi]; simpl; [by apply (k_nodup _ _ _ K)|].
      destruct (is_proxy n) eqn:Hp; [by apply (k_nodup _ _ _ K)|].
      apply NoDup_app. split; [by apply (k_nodup _ _ _ K)|]. split; [|apply NoDup_singleton].
      intros r Hr' ->%elem_of_list_singleton. destruct (k_nodes _ _ _ K _ Hr') as (m&Hs&Hm&_&_&E).
      apply (Hout Hi m Hs). rewrite rf_fst in E by done. injection E as E. congruence.
    - intros n' Hs.
      assert (n' = n ∨ is_Some (seen x !! n')) as [->|Hs'].
      { destruct (decide _); by apply put_inv in Hs. }
      + destruct (decide _); simpl; set_solver.
      + apply (k_added _ _ _ K) in Hs'. destruct (decide _); simpl; set_solver.
    - intros m Hm.
      assert (m ∈ added x ∨ m = canon n) as [Hx| ->] by (destruct (decide _); simpl in *; set_solver).
      + destruct (k_adds _ _ _ K _ Hx) as (n'&Hs&?). exists n'. split; [|done]. apply put_some. by destruct (decide _).
      + exists n. by rewrite lookup_insert.
    - intros n' Hp Hs He.
      assert (edges (if decide (canon n ∈ added x) then x
        else Nspace (seen x) ({[canon n]} ∪ added x)
               (if is_proxy n then nodes x else nodes x ++ [rf p n]) (edges x)) = edges x) as ->
        by by destruct (decide _).
      assert (n' = n ∨ is_Some (seen x !! n')) as [->|Hs'].
      { destruct (decide _); by apply put_inv in Hs. }
      + destruct p; [|done]. by destruct n.
      + by apply (k_edge _ _ _ K).
    - intros r Hr'.
      assert (r ∈ edges x) as Hx by by destruct (decide _).
      destruct (k_edges _ _ _ K _ Hx) as (m&Hs&?). exists m. split; [|done]. apply put_some. by destruct (decide _).
    - destruct (decide _); apply (k_enodup _ _ _ K).
  Qed.

  Lemma ok_alias p x h n :
    okspace p x h → is_alias n → asks p n → is_Some (seen x !! resolve n) →
    okspace p (put n (rf p n) x) h.
  Proof.
    intros K Ha Hk Hs0.
    assert (is_Some (h !! rf p n)) as Hh.
    { destruct Hs0 as [r Hr]. destruct (k_seen _ _ _ K _ _ Hr) as (->&_&Hh). by rewrite rf_alias in Hh. }
    assert (reqs n = [resolve n]) as Hreq by by destruct n.
    split; unfold put; simpl.
    - intros n' r Hs. apply lookup_insert_Some in Hs as [[<- <-]|[_ Hs]]; [done|]. by apply (k_seen _ _ _ K).
    - intros n' m Hs Hm. apply put_some. apply put_inv in Hs as [->|Hs].
      + rewrite Hreq in Hm. by apply elem_of_list_singleton in Hm as ->.
      + by eapply (k_reqs _ _ _ K).
    - intros n' Hs Hp Hg. apply put_inv in Hs as [->|Hs]; [|by apply (k_node _ _ _ K)].
      rewrite <-rf_alias by done. apply (k_node _ _ _ K); [done|..|by rewrite canon_resolve].
      destruct Hs0 as [r Hr]. destruct (k_seen _ _ _ K _ _ Hr) as (E&Hk'&_).
      destruct (is_proxy (resolve n)) eqn:Hp'; [|done]. destruct (resolve n) eqn:En; try done.
      exfalso. assert (canon (resolve n) = Server i) as Ec by by rewrite En.
      rewrite canon_resolve in Ec. by destruct (canon_is_server _ _ _ Hk Ec) as [->| ->].
    - intros r Hr. destruct (k_nodes _ _ _ K _ Hr) as (m&Hs&?). exists m. split; [|done]. by apply put_some.
    - apply (k_nodup _ _ _ K).
    - intros n' Hs. apply put_inv in Hs as [->|Hs]; [|by apply (k_added _ _ _ K)].
      rewrite <-canon_resolve. by apply (k_added _ _ _ K).
    - intros m Hm. destruct (k_adds _ _ _ K _ Hm) as (n'&Hs&?). exists n'. split; [|done]. by apply put_some.
    - intros n' Hp Hs He. apply put_inv in Hs as [->|Hs]; [by destruct n|]. by apply (k_edge _ _ _ K).
    - intros r Hr. destruct (k_edges _ _ _ K _ Hr) as (m&Hs&?). exists m. split; [|done]. by apply put_some.
    - apply (k_enodup _ _ _ K).
  Qed.

  Lemma ok_edge q x h n e :
    okspace (Some q) x h → resolve n = n → golang n = false → asks (Some q) n → (is_edge n → seen x !! n = None) →
    (e = true ∨ ¬ is_edge n) → is_Some (h !! rf (Some q) n) →
    okspace (Some q) (put n (rf (Some q) n) (got_edge n e (rf (Some q) n) x)) h.
  Proof using WF.
    intros K Hr Ha Hk Hnew He Hh. unfold got_edge. rewrite rf_snd.
    assert (reqs n = []) as Hreq by by destruct n.
    assert (golang (canon n) = true → is_proxy n = true) as Hgp.
    { intros Hg. destruct (is_proxy n) eqn:Hp; [done|]. rewrite golang_canon in Hg; [congruence|done|].
      by intros i ->. }
    assert (is_edge n → canon n ∉ added x) as Hedge.
    { intros Hx Hi. destruct (k_adds _ _ _ K _ Hi) as (n'&[r' Hs]&Hc).
      destruct (k_seen _ _ _ K _ _ Hs) as (_&Hk'&_).
      assert (n' = n) as ->; [|rewrite Hnew in Hs; done].
      destruct n; try done; [by eapply canon_is_dial|by eapply canon_is_bind]. }
    assert (is_edge n → rf (Some q) n = (None, n)) as Hrf by by destruct n.
    assert (is_meta (canon n) = false → is_proxy n = false → is_edge n) as Hme.
    { intros Hm Hp. destruct n; try done. }
    assert (is_edge n → negb (is_meta (canon n)) && e && negb (is_proxy n) = true) as Hyes.
    { intros Hx. destruct He as [->|?]; [|done]. by destruct n. }
    assert (negb (is_meta (canon n)) && e && negb (is_proxy n) = true → is_edge n) as Hno.
    { rewrite !andb_true_iff, !negb_true_iff. naive_solver. }
    set (b := negb (is_meta (canon n)) && e && negb (is_proxy n)) in *.
    set (y := if decide (canon n ∈ added x) then x
        else Nspace (seen x) ({[canon n]} ∪ added x) (nodes x)
               (if b then edges x ++ [rf (Some q) n] else edges x)).
    assert (seen y = seen x) as Ey by by unfold y; destruct (decide _).
    assert (nodes y = nodes x) as En by by unfold y; destruct (decide _).
    split; unfold put; simpl; rewrite ?Ey, ?En.
    - intros n' r Hs. apply lookup_insert_Some in Hs as [[<- <-]|[_ Hs]]; [done|]. by apply (k_seen _ _ _ K).
    - intros n' m Hs Hm. apply put_some. apply put_inv in Hs as [->|Hs].
      + rewrite Hreq in Hm. by apply elem_of_nil in Hm.
      + by eapply (k_reqs _ _ _ K).
    - intros n' Hs Hp Hg. apply put_inv in Hs as [->|Hs]; [|by apply (k_node _ _ _ K)].
      destruct Hg as [Hg|?]; [|done]. apply Hgp in Hg. congruence.
    - intros r Hr'. destruct (k_nodes _ _ _ K _ Hr') as (m&Hs&?). exists m. split; [|done]. by apply put_some.
    - apply (k_nodup _ _ _ K).
    - intros n' Hs. unfold y. apply put_inv in Hs as [->|Hs].
      + destruct (decide _); simpl; set_solver.
      + apply (k_added _ _ _ K) in Hs. destruct (decide _); simpl; set_solver.
    - intros m Hm. assert (m ∈ added x ∨ m = canon n) as [Hx| ->].
      { unfold y in Hm. destruct (decide _); simpl in *; set_solver. }
      + destruct (k_adds _ _ _ K _ Hx) as (n'&Hs&?). exists n'. split; [|done]. by apply put_some.
      + exists n. by rewrite lookup_insert.
    - intros n' Hp Hs Hx. apply put_inv in Hs as [->|Hs].
      + unfold y. rewrite decide_False by auto. simpl. rewrite Hyes by done. set_solver.
      + apply (k_edge _ _ _ K) in Hx; [|done..]. unfold y. destruct (decide _); simpl; [done|].
        destruct b; set_solver.
    - intros r Hr'.
      assert (r ∈ edges x ∨ (is_edge n ∧ r = rf (Some q) n)) as [Hx|[Hx ->]].
      { unfold y in Hr'. destruct (decide _); simpl in *; [by left|].
        destruct b; [|by left]. set_solver. }
      + destruct (k_edges _ _ _ K _ Hx) as (m&Hs&?). exists m. split; [|done]. by apply put_some.
      + exists n. rewrite lookup_insert. split_and!; [eauto|done|by apply Hrf|done].
    - unfold y. destruct (decide _) as [|Hi]; simpl; [apply (k_enodup _ _ _ K)|].
      destruct b eqn:Eb; [|apply (k_enodup _ _ _ K)].
      apply NoDup_app. split; [apply (k_enodup _ _ _ K)|]. split; [|apply NoDup_singleton].
      intros r Hr' ->%elem_of_list_singleton. rewrite Hrf in Hr' by auto.
      destruct (k_edges _ _ _ K _ Hr') as (m&[r Hs]&_&E&_). injection E as <-. rewrite Hnew in Hs; auto; done.
  Qed.

  (** ** The whole state *)
  Definition at_ (s : st) (p : space) (n : nm) : option ref := spaces s !! p ≫= λ x, seen x !! n.
  Record Inv (s : st) : Prop := {
    v_none : is_Some (spaces s !! None);
    v_space p x : spaces s !! p = Some x → okspace p x (heap s);
    v_need q : is_Some (spaces s !! Some q) → needed q;
    v_up q n : is_Some (at_ s (Some q) n) → golang n = false → resolve n = n → is_Some (at_ s None n);
    v_heap p n l : heap s !! (p, n) = Some l → l = holds p n;
    v_served i (r : ref) : served s !! i = Some r → r = (Some (home i), Server i);
    v_server p i : is_Some (at_ s p (Server i)) → is_Some (served s !! i);
    v_enter p i : is_Some (at_ s p (Enter i)) → is_Some (at_ s (Some (home i)) (Server i));
    v_unique i : i ∈ unique s → ∃ q, is_Some (at_ s (Some q) (Check i)) }.

  (** What a Get that enters no process may have done. *)
  Record ext (s s' : st) : Prop := {
    e_dom p : is_Some (spaces s !! p) ↔ is_Some (spaces s' !! p);
    e_mono p n : is_Some (at_ s p n) → is_Some (at_ s' p n);
    e_proc q : is_Some (at_ s' None (Proc q)) → is_Some (at_ s None (Proc q));
    e_queue : ∃ l, queue s' = queue s ++ l ∧
      ∀ j, j ∈ l → ∃ p i, j = JDst p i ∧ is_Some (at_ s' p (Svc i));
    e_svc p j : is_Some (at_ s' p (Svc j)) → is_Some (at_ s p (Svc j)) ∨ JDst p j ∈ queue s';
    e_served i : served s' !! i = served s !! i ∨ is_Some (at_ s' (Some (home i)) (Server i)) }.

  Lemma ext_refl s : ext s s.
  Proof. split; eauto. exists []. rewrite app_nil_r. split; [done|]. intros j Hj. by apply elem_of_nil in Hj. Qed.
  Lemma ext_trans s1 s2 s3 : ext s1 s2 → ext s2 s3 → ext s1 s3.
  Proof.
    intros A B. split.
    - intros p. rewrite (e_dom _ _ A). apply (e_dom _ _ B).
    - intros p n H. by apply (e_mono _ _ B), (e_mono _ _ A).
    - intros q H. by apply (e_proc _ _ A), (e_proc _ _ B).
    - destruct (e_queue _ _ A) as (l1&E1&H1), (e_queue _ _ B) as (l2&E2&H2).
      exists (l1 ++ l2). rewrite E2, E1, app_assoc. split; [done|].
      intros j [Hj|Hj]%elem_of_app; [|by apply H2].
      destruct (H1 _ Hj) as (p&i&->&H). exists p, i. split; [done|]. by apply (e_mono _ _ B).
    - intros p j H. apply (e_svc _ _ B) in H as [H|H]; [|by right].
      apply (e_svc _ _ A) in H as [H|H]; [by left|right].
      destruct (e_queue _ _ B) as (l&->&_). set_solver.
    - intros i. destruct (e_served _ _ B i) as [->|H]; [|by right].
      destruct (e_served _ _ A i) as [->|H]; [by left|right]. by apply (e_mono _ _ B).
  Qed.

  Lemma okspace_heap p x h h' :
    (∀ r, is_Some (h !! r) → is_Some (h' !! r)) → okspace p x h → okspace p x h'.
  Proof.
    intros H K. split; try apply K. intros n r Hs. destruct (k_seen _ _ _ K _ _ Hs) as (?&?&?). auto.
  Qed.

  Lemma at_insert s s3 p n x x3 p' n' :
    spaces s !! p = Some x → spaces s3 = <[p := x3]> (spaces s) → seen x3 = <[n := rf p n]> (seen x) →
    at_ s3 p' n' = if decide (p' = p ∧ n' = n) then Some (rf p n) else at_ s p' n'.
  Proof.
    intros H1 H2 H3. unfold at_. rewrite H2. destruct (decide (p' = p)) as [->|Hp].
    - rewrite lookup_insert, H1. simpl. rewrite H3. destruct (decide (n' = n)) as [->|Hn].
      + rewrite lookup_insert. by rewrite decide_True.
      + rewrite lookup_insert_ne by done. rewrite decide_False; naive_solver.
    - rewrite lookup_insert_ne by done. rewrite decide_False; naive_solver.
  Qed.

  Lemma at_space s p n : is_Some (at_ s p n) → is_Some (spaces s !! p).
  Proof. unfold at_. intros [r H]. destruct (spaces s !! p); [eauto|done]. Qed.
  Lemma at_val s p n r : Inv s → at_ s p n = Some r → r = rf p n ∧ asks p n ∧ is_Some (heap s !! r).
  Proof.
    unfold at_. intros V H. destruct (spaces s !! p) as [x|] eqn:E; [|done].
    by apply (k_seen _ _ _ (v_space _ V _ _ E)).
  Qed.
  Lemma at_asks s p n : Inv s → is_Some (at_ s p n) → asks p n.
  Proof. intros V [r H]. by destruct (at_val _ _ _ _ V H) as (?&?&?). Qed.
  Lemma at_reqs s p n n' : Inv s → is_Some (at_ s p n) → n' ∈ reqs n → is_Some (at_ s p n').
  Proof.
    unfold at_. intros V H Hn. destruct (spaces s !! p) as [x|] eqn:E; [|by destruct H].
    by apply (k_reqs _ _ _ (v_space _ V _ _ E) n).
  Qed.
  Lemma at_none s p n x : spaces s !! p = Some x → seen x !! n = None → at_ s p n = None.
  Proof. intros H1 H2. unfold at_. by rewrite H1. Qed.

  Lemma finish p n x x3 s1 s3 :
    Inv s1 → spaces s1 !! p = Some x → spaces s3 = <[p := x3]> (spaces s1) →
    seen x3 = <[n := rf p n]> (seen x) → okspace p x3 (heap s3) → queue s3 = queue s1 →
    (∀ r, is_Some (heap s1 !! r) → is_Some (heap s3 !! r)) →
    (∀ p n l, heap s3 !! (p, n) = Some l → heap s1 !! (p, n) = Some l ∨ l = holds p n) →
    (∀ i, served s3 !! i = served s1 !! i ∨
          (n = Server i ∧ p = Some (home i) ∧ served s3 !! i = Some ((Some (home i), Server i) : ref))) →
    (∀ i, n = Server i → is_Some (served s3 !! i)) →
    (∀ i, i ∈ unique s3 → i ∈ unique s1 ∨ (n = Check i ∧ p ≠ None)) →
    (∀ q, p = Some q → golang n = false → resolve n = n → is_Some (at_ s1 None n)) →
    (∀ i, n = Enter i → is_Some (at_ s1 (Some (home i)) (Server i))) →
    Inv s3 ∧ (∀ p' n', is_Some (at_ s3 p' n') ↔ (p' = p ∧ n' = n) ∨ is_Some (at_ s1 p' n')) ∧
    ((∀ q, n ≠ Proc q) → (∀ i, n = Svc i → JDst p i ∈ queue s1) → ext s1 s3).
  Proof.
    intros V Hx Hsp Hseen K Hq Hh1 Hh2 Hs1 Hs2 Hu Hup Hent.
    assert (∀ p' n', is_Some (at_ s3 p' n') ↔ (p' = p ∧ n' = n) ∨ is_Some (at_ s1 p' n')) as Hat.
    { intros p' n'. rewrite (at_insert s1 s3 p n x x3) by done.
      destruct (decide _); naive_solver. }
    assert (∀ p', is_Some (spaces s1 !! p') ↔ is_Some (spaces s3 !! p')) as Hdom.
    { intros p'. rewrite Hsp. destruct (decide (p' = p)) as [->|]; [rewrite lookup_insert, Hx; naive_solver|].
      by rewrite lookup_insert_ne. }
    split; [|split; [done|]].
    - split.
      + apply Hdom, V.
      + intros p' x' Hx'. rewrite Hsp in Hx'. apply lookup_insert_Some in Hx' as [[<- <-]|[_ Hx']]; [done|].
        eapply okspace_heap; [exact Hh1|]. by apply (v_space _ V).
      + intros q H. apply (v_need _ V). by apply Hdom.
      + intros q n' H Hg Hr. apply Hat. apply Hat in H as [[<- ->]|H]; right; [by eapply Hup|].
        by eapply (v_up _ V).
      + intros p' n' l H. destruct (Hh2 _ _ _ H) as [H'|H']; [by apply (v_heap _ V)|done].
      + intros i r H. destruct (Hs1 i) as [E|(_&_&E)]; [rewrite E in H; by apply (v_served _ V)|congruence].
      + intros p' i H. apply Hat in H as [[_ <-]|H]; [by apply Hs2|].
        apply (v_server _ V) in H. destruct (Hs1 i) as [->|(_&_&->)]; eauto.
      + intros p' i H. apply Hat. right. apply Hat in H as [[_ <-]|H]; [by apply Hent|].
        by apply (v_enter _ V) in H.
      + intros i Hi. destruct (Hu _ Hi) as [Hi'|[<- Hp]].
        * destruct (v_unique _ V _ Hi') as [q ?]. exists q. apply Hat. by right.
        * destruct p as [q|]; [|done]. exists q. apply Hat. by left.
    - intros HnP Hsvc. split.
      + done.
      + intros p' n' H. apply Hat. by right.
      + intros q H. apply Hat in H as [[_ <-]|H]; [by destruct (HnP q)|done].
      + exists []. rewrite app_nil_r. split; [done|]. intros j Hj. by apply elem_of_nil in Hj.
      + intros p' j H. rewrite Hq. apply Hat in H as [[-> <-]|H]; [right; by apply Hsvc|by left].
      + intros i. destruct (Hs1 i) as [E|(E1&E2&_)]; [by left|right]. apply Hat. left. by rewrite E1, E2.
  Qed.

  Lemma at_seen s p n x : spaces s !! p = Some x → at_ s p n = seen x !! n.
  Proof. intros H. unfold at_. by rewrite H. Qed.

  (** ** Getting a node *)
  Lemma get_seen f p n e s r : at_ s p n = Some r → get c (S f) p n e s = Ok r s.
  Proof.
    unfold at_. intros H. simpl. destruct (spaces s !! p) as [x|]; [|done]. simpl in H. by rewrite H.
  Qed.
  Lemma get_alias_step f p n e s x s1 r :
    spaces s !! p = Some x → at_ s p n = None → is_alias n →
    get c f p (resolve n) e s = Ok r s1 → get c (S f) p n e s = Ok r (see p n r s1).
  Proof.
    unfold at_. intros Hx H Ha E. simpl. rewrite Hx in *. simpl in H. rewrite H.
    rewrite decide_True by by apply alias_resolve. by rewrite E.
  Qed.
  Lemma get_node_step f p n e s x s1 r :
    spaces s !! p = Some x → at_ s p n = None → resolve n = n → accepts p n = true →
    build c (get c f) p n s = Ok r s1 →
    get c (S f) p n e s = Ok r (see p n r (set_spaces (alter (got_node n r) p) s1)).
  Proof.
    unfold at_. intros Hx H Hr Ha E. simpl. rewrite Hx in *. simpl in H. rewrite H.
    rewrite decide_False by naive_solver. rewrite Ha. by rewrite E.
  Qed.
  Lemma get_edge_step f p n e s x s1 r :
    spaces s !! p = Some x → at_ s p n = None → resolve n = n → accepts p n = false →
    get c f None n e s = Ok r s1 →
    get c (S f) p n e s = Ok r (see p n r (set_spaces (alter (got_edge n e r) p) s1)).
  Proof.
    unfold at_. intros Hx H Hr Ha E. simpl. rewrite Hx in *. simpl in H. rewrite H.
    rewrite decide_False by naive_solver. rewrite Ha. by rewrite E.
  Qed.
  Lemma alter_alter_at (m : gmap space nspace) p x (f g : nspace → nspace) :
    m !! p = Some x → alter f p (alter g p m) = <[p := f (g x)]> m.
  Proof.
    intros H. apply map_eq. intros p'. destruct (decide (p' = p)) as [->|].
    - by rewrite lookup_insert, !lookup_alter, H.
    - by rewrite lookup_insert_ne, !lookup_alter_ne.
  Qed.
  Lemma alter_at (m : gmap space nspace) p x (f : nspace → nspace) :
    m !! p = Some x → alter f p m = <[p := f x]> m.
  Proof.
    intros H. apply map_eq. intros p'. destruct (decide (p' = p)) as [->|].
    - by rewrite lookup_insert, lookup_alter, H.
    - by rewrite lookup_insert_ne, lookup_alter_ne.
  Qed.

  (** What a build function does after its Gets. *)
  Record post (p : space) (n : nm) (s1 s2 : st) : Prop := {
    p_spaces : spaces s2 = spaces s1;
    p_queue : queue s2 = queue s1;
    p_heap1 r : is_Some (heap s1 !! r) → is_Some (heap s2 !! r);
    p_heap2 p n l : heap s2 !! (p, n) = Some l → heap s1 !! (p, n) = Some l ∨ l = holds p n;
    p_heap : is_Some (heap s2 !! rf p n);
    p_served i : served s2 !! i = served s1 !! i ∨
          (n = Server i ∧ p = Some (home i) ∧ served s2 !! i = Some ((Some (home i), Server i) : ref));
    p_server i : n = Server i → is_Some (served s2 !! i);
    p_unique i : i ∈ unique s2 → i ∈ unique s1 ∨ (n = Check i ∧ p ≠ None);
    p_enter i : n = Enter i → is_Some (at_ s1 (Some (home i)) (Server i)) }.

  Definition outcome (p : space) (n : nm) (s1 s3 : st) : Prop :=
    Inv s3 ∧ (∀ p' n', is_Some (at_ s3 p' n') ↔ (p' = p ∧ n' = n) ∨ is_Some (at_ s1 p' n')) ∧
    ((∀ q, n ≠ Proc q) → (∀ i, n = Svc i → JDst p i ∈ queue s1) → ext s1 s3).

  Lemma get_node f p n e s s1 s2 :
    is_Some (spaces s !! p) → at_ s p n = None → resolve n = n → accepts p n = true → asks p n →
    build c (get c f) p n s = Ok (rf p n) s2 → Inv s1 → is_Some (spaces s1 !! p) → post p n s1 s2 →
    (∀ n', n' ∈ reqs n → is_Some (at_ s1 p n')) →
    ∃ s3, get c (S f) p n e s = Ok (rf p n) s3 ∧ outcome p n s1 s3 ∧
          queue s3 = queue s2 ∧ served s3 = served s2 ∧ unique s3 = unique s2 ∧
          spaces s3 = alter (put n (rf p n) ∘ got_node n (rf p n)) p (spaces s2).
  Proof using WF.
    intros [x Hx] Hn Hr Ha Hk Hb V [y Hy] P Hreq.
    eexists. split; [by eapply get_node_step|].
    assert (∀ h q sv u m, spaces (see p n (rf p n) (set_spaces (alter (got_node n (rf p n)) p)
       (St m q sv u h))) = alter (put n (rf p n) ∘ got_node n (rf p n)) p m) as Esp.
    { intros. simpl. by rewrite alter_compose. }
    split; [|split_and!; try done; by destruct s2].
    apply (finish p n y (put n (rf p n) (got_node n (rf p n) y)) s1); try done; try apply P.
    - simpl. erewrite alter_alter_at; [|rewrite (p_spaces _ _ _ _ P); exact Hy].
      by rewrite (p_spaces _ _ _ _ P).
    - unfold put, got_node. by destruct (decide _).
    - simpl. apply ok_node; try done.
      + eapply okspace_heap; [|by apply (v_space _ V)]. apply (p_heap1 _ _ _ _ P).
      + intros n' Hn'. specialize (Hreq n' Hn'). unfold at_ in Hreq. by rewrite Hy in Hreq.
      + apply (p_heap _ _ _ _ P).
    - intros q -> Hg. simpl in Ha. congruence.
  Qed.
  Lemma get_alias f p n e s s1 :
    is_Some (spaces s !! p) → at_ s p n = None → is_alias n → asks p n →
    get c f p (resolve n) e s = Ok (rf p (resolve n)) s1 → Inv s1 → is_Some (spaces s1 !! p) →
    is_Some (at_ s1 p (resolve n)) →
    ∃ s3, get c (S f) p n e s = Ok (rf p n) s3 ∧ outcome p n s1 s3 ∧ queue s3 = queue s1.
  Proof.
    intros [x Hx] Hn Ha Hk Hb V [y Hy] Hs. rewrite rf_alias in Hb by done.
    eexists. split; [by eapply get_alias_step|]. split; [|done].
    apply (finish p n y (put n (rf p n) y) s1); try done; auto.
    - simpl. by rewrite (alter_at _ _ y).
    - apply ok_alias; try done; [by apply (v_space _ V)|]. unfold at_ in Hs. by rewrite Hy in Hs.
    - by intros i ->.
    - intros q _ _ Hr. by apply alias_resolve in Hr.
    - by intros i ->.
  Qed.
  Lemma get_edge f q n e s s1 :
    is_Some (spaces s !! Some q) → at_ s (Some q) n = None → resolve n = n → golang n = false →
    asks (Some q) n → (e = true ∨ ¬ is_edge n) →
    get c f None n e s = Ok (rf (Some q) n) s1 → Inv s1 → is_Some (spaces s1 !! Some q) →
    (is_edge n → at_ s1 (Some q) n = None) → is_Some (at_ s1 None n) →
    is_Some (heap s1 !! rf (Some q) n) →
    (∀ i, n = Enter i → is_Some (at_ s1 (Some (home i)) (Server i))) →
    ∃ s3, get c (S f) (Some q) n e s = Ok (rf (Some q) n) s3 ∧ outcome (Some q) n s1 s3 ∧
          queue s3 = queue s1 ∧ served s3 = served s1 ∧ unique s3 = unique s1 ∧
          (∀ p, p ≠ Some q → spaces s3 !! p = spaces s1 !! p).
  Proof using WF.
    intros [x Hx] Hn Hr Hg Hk He Hb V [y Hy] Hn1 Hup Hh Hent.
    eexists. split; [by eapply get_edge_step|].
    split; [|split_and!; try done; intros p Hp; simpl; by rewrite !lookup_alter_ne].
    apply (finish (Some q) n y (put n (rf (Some q) n) (got_edge n e (rf (Some q) n) y)) s1); try done; auto.
    - simpl. by erewrite alter_alter_at.
    - unfold put, got_edge. by destruct (decide _).
    - simpl. apply ok_edge; try done; [by apply (v_space _ V)|]. intros He'. by rewrite <-Hn1, (at_seen _ _ _ _ Hy).
    - by intros i ->.
  Qed.

  Definition okat (f : nat) (n : nm) : Prop :=
    ∀ p e s, Inv s → is_Some (spaces s !! p) → asks p n →
      (e = true ∨ (resolve n = n ∧ golang n = true)) →
      ∃ s', get c f p n e s = Ok (rf p n) s' ∧ Inv s' ∧ ext s s' ∧ is_Some (at_ s' p n).
  Definition okget (n : nm) : Prop := ∃ f0, ∀ f, f0 ≤ f → okat f n.

  (** It is enough to look at nodes that are not there yet. *)
  Lemma okat_new f n :
    (∀ p e s, Inv s → is_Some (spaces s !! p) → asks p n → at_ s p n = None →
      (e = true ∨ (resolve n = n ∧ golang n = true)) →
      ∃ s', get c (S f) p n e s = Ok (rf p n) s' ∧ Inv s' ∧ ext s s' ∧ is_Some (at_ s' p n)) →
    okat (S f) n.
  Proof.
    intros H p e s V Hp Hk He. destruct (at_ s p n) as [r|] eqn:E; [|by apply H].
    exists s. destruct (at_val _ _ _ _ V E) as (->&_&_).
    split_and!; [by apply get_seen|done|apply ext_refl|by eauto].
  Qed.
  Lemma okget_new n f0 :
    (∀ f, f0 ≤ f → ∀ p e s, Inv s → is_Some (spaces s !! p) → asks p n → at_ s p n = None →
      (e = true ∨ (resolve n = n ∧ golang n = true)) →
      ∃ s', get c (S f) p n e s = Ok (rf p n) s' ∧ Inv s' ∧ ext s s' ∧ is_Some (at_ s' p n)) →
    okget n.
  Proof.
    intros H. exists (S f0). intros [|f] Hf; [lia|]. apply okat_new. apply H. lia.
  Qed.

  Lemma getl_ok f p ns s k :
    Inv s → is_Some (spaces s !! p) → (∀ n, n ∈ ns → asks p n ∧ okat f n) →
    ∃ s', getl (get c f) p ns s k = k (rf p <$> ns) s' ∧ Inv s' ∧ ext s s' ∧
          ∀ n, n ∈ ns → is_Some (at_ s' p n).
  Proof.
    revert s k. induction ns as [|n ns IH]; intros s k V Hp Hns; simpl.
    { exists s. split_and!; [done|done|apply ext_refl|]. intros n Hn. by apply elem_of_nil in Hn. }
    destruct (Hns n) as [Hk Hok]; [set_solver|].
    destruct (Hok p true s V Hp Hk (or_introl eq_refl)) as (s1&E1&V1&X1&A1). rewrite E1. simpl.
    destruct (IH s1 (λ rs, k (rf p n :: rs)) V1) as (s2&E2&V2&X2&A2).
    { by apply (e_dom _ _ X1). }
    { intros m Hm. apply Hns. set_solver. }
    exists s2. split_and!; [done|done|by eapply ext_trans|].
    intros m [->|Hm]%elem_of_cons; [by apply (e_mono _ _ X2)|by apply A2].
  Qed.

  (** Nodes whose build function gets nothing. *)
  Definition is_leaf (n : nm) : Prop :=
    match n with Metric _ | Logger _ | Addr _ | Dial _ | Bind _ | Vis _ => True | _ => False end.
  Lemma post_make p n s1 :
    rf p n = (p, n) → (∀ i, n ≠ Server i) → (∀ i, n ≠ Enter i) →
    post p n s1 (alloc (p, n) (holds p n) s1).
  Proof.
    intros E H1 H2. split; simpl; try done; auto.
    - intros r Hr. destruct (decide (r = (p, n))) as [->|]; [by rewrite lookup_insert|].
      by rewrite lookup_insert_ne.
    - intros p' n' l H. apply lookup_insert_Some in H as [[E' <-]|[_ H]]; [|by left].
      right. by injection E' as -> ->.
    - rewrite E. by rewrite lookup_insert.
    - intros i ->. by destruct (H1 i).
    - intros i ->. by destruct (H2 i).
  Qed.
  Definition leaves (p : space) (n : nm) (s s' : st) : Prop :=
    Inv s' ∧ ext s s' ∧ is_Some (at_ s' p n) ∧ queue s' = queue s ∧ unique s' = unique s ∧
    served s' = served s ∧
    (∀ p' n', n' ≠ n → is_Some (at_ s' p' n') → is_Some (at_ s p' n')) ∧
    (∀ p', p' ≠ None → p' ≠ p → spaces s' !! p' = spaces s !! p').
  Lemma leaves_refl p n s : Inv s → is_Some (at_ s p n) → leaves p n s s.
  Proof. intros V H. split_and!; try done. apply ext_refl. Qed.
  Lemma leaf_here f p n e s :
    Inv s → is_Some (spaces s !! p) → asks p n → is_leaf n → accepts p n = true →
    ∃ s', get c (S f) p n e s = Ok (rf p n) s' ∧ leaves p n s s'.
  Proof using WF.
    intros V Hp Hk Hl Ha. destruct (at_ s p n) as [r|] eqn:E.
    { destruct (at_val _ _ _ _ V E) as (->&_&_). exists s. split; [by apply get_seen|].
      apply leaves_refl; eauto. }
    assert (resolve n = n) as Hr by by destruct n.
    assert (rf p n = (p, n)) as Hrf.
    { rewrite rf_fst; try done; by destruct n. }
    assert (build c (get c f) p n s = Ok (rf p n) (alloc (p, n) (holds p n) s)) as Hb
      by (rewrite Hrf; by destruct n).
    destruct (get_node f p n e s s _ Hp E Hr Ha Hk Hb V Hp) as (s3&E3&(V3&A3&X3)&Q3&S3&U3&Sp3).
    { apply post_make; [done| |]; by destruct n. }
    { intros n' Hn'. destruct n; simpl in *; try done; by apply elem_of_nil in Hn'. }
    exists s3. split; [done|]. split_and!; try done.
    - apply X3; [by intros q ->|by intros i ->].
    - apply A3. by left.
    - intros p' n' Hne H. apply A3 in H as [[_ ->]|H]; done.
    - intros p' _ Hp'. rewrite Sp3. by rewrite lookup_alter_ne.
  Qed.
  Lemma leaf f p n e s :
    Inv s → is_Some (spaces s !! p) → asks p n → is_leaf n → (e = true ∨ golang n = true) →
    ∃ s', get c (S (S f)) p n e s = Ok (rf p n) s' ∧ leaves p n s s'.
  Proof using WF.
    intros V Hp Hk Hl He. destruct (accepts p n) eqn:Ha; [by apply leaf_here|].
    destruct p as [q|]; [|done]. simpl in Ha.
    destruct (at_ s (Some q) n) as [r|] eqn:E.
    { destruct (at_val _ _ _ _ V E) as (->&_&_). exists s. split; [by apply get_seen|].
      apply leaves_refl; eauto. }
    assert (resolve n = n) as Hr by by destruct n.
    assert (rf (Some q) n = rf None n) as Hrf by by destruct n.
    destruct (leaf_here f None n e s V) as (s1&E1&V1&X1&A1&Q1&U1&S1&O1&P1); try done.
    { apply V. }
    { apply (asks_up q); try done. by apply (v_need _ V). }
    rewrite <-Hrf in E1.
    assert (at_ s1 (Some q) n = None) as N1.
    { rewrite <-E. unfold at_. rewrite P1; [done..|]. done. }
    destruct (get_edge (S f) q n e s s1 Hp E Hr Ha Hk) as (s3&E3&(V3&A3&X3)&Q3&S3&U3&P3); try done.
    { destruct He; [by left|]. congruence. }
    { by apply (e_dom _ _ X1). }
    { destruct A1 as [r Hr']. destruct (at_val _ _ _ _ V1 Hr') as (->&_&?). by rewrite Hrf. }
    { by intros i ->. }
    exists s3. split; [done|]. split_and!; try done; try congruence.
    - eapply ext_trans; [done|]. apply X3; [by intros q' ->|by intros i ->].
    - apply A3. by left.
    - intros p' n' Hne H. apply A3 in H as [[_ ->]|H]; [done|by apply O1].
    - intros p' H1 H2. rewrite P3 by done. by apply P1.
  Qed.
  Lemma okget_leaf n : is_leaf n → okget n.
  Proof using WF.
    intros Hl. exists 2. intros [|[|f]] Hf; [lia..|]. intros p e s V Hp Hk He.
    destruct (leaf f p n e s V Hp Hk Hl) as (s'&E&V'&X'&A'&_); [naive_solver|]. eauto.
  Qed.

  Lemma okget_all (l : list nm) :
    (∀ m, m ∈ l → okget m) → ∃ f0, ∀ f, f0 ≤ f → ∀ m, m ∈ l → okat f m.
  Proof.
    induction l as [|n l IH]; intros H.
    { exists 0. intros f _ m Hm. by apply elem_of_nil in Hm. }
    destruct (H n) as [f1 H1]; [set_solver|]. destruct IH as [f2 H2]; [set_solver|].
    exists (f1 `max` f2). intros f Hf m [->|Hm]%elem_of_cons; [apply H1; lia|apply H2; [lia|done]].
  Qed.
  Lemma okget_alias n : is_alias n → okget (resolve n) → okget n.
  Proof.
    intros Ha [f0 Hok]. apply (okget_new n f0). intros f Hf p e s V Hp Hk Hn He.
    assert (e = true) as ->.
    { destruct He as [->|[Hr _]]; [done|]. by apply alias_resolve in Hr. }
    destruct (Hok f Hf p true s V Hp) as (s1&E1&V1&X1&A1); [by apply asks_resolve|by left|].
    destruct (get_alias f p n true s s1) as (s3&E3&(V3&A3&X3)&_); try done.
    { by apply (e_dom _ _ X1). }
    exists s3. split_and!; try done.
    - eapply ext_trans; [done|]. apply X3; [by intros q ->|by intros i ->].
    - apply A3. by left.
  Qed.
  Definition is_plain (n : nm) : Prop :=
    match n with Src _ _ | RpcClient _ | Dst _ _ | Handler _ => True | _ => False end.
  Lemma okget_plain n : is_plain n → (∀ m, m ∈ deps n → okget m) → okget n.
  Proof using WF.
    intros Hpl Hdeps. destruct (okget_all _ Hdeps) as [f0 Hok].
    apply (okget_new n f0). intros f Hf p e s V Hp Hk Hn _.
    assert (∃ q, p = Some q) as [q ->] by (destruct p; [eauto|by destruct n]).
    assert (reqs n = deps n) as Hreq by by destruct n.
    assert (rf (Some q) n = (Some q, n)) as Hrf by by destruct n.
    destruct (getl_ok f (Some q) (deps n) s (make (Some q) n) V Hp) as (s1&E1&V1&X1&A1).
    { intros m Hm. split; [|by apply Hok]. apply (asks_reqs q n); [done|by rewrite Hreq]. }
    destruct (get_node f (Some q) n e s s1 (alloc (Some q, n) (holds (Some q) n) s1))
      as (s3&E3&(V3&A3&X3)&_); try done.
    { by destruct n. }
    { by destruct n. }
    { rewrite Hrf. transitivity (make (Some q) n (rf (Some q) <$> deps n) s1); [|by destruct n].
      rewrite <-E1. by destruct n. }
    { by apply (e_dom _ _ X1). }
    { apply post_make; [done| |]; by destruct n. }
    { by rewrite Hreq. }
    exists s3. split_and!; try done.
    - eapply ext_trans; [done|]. apply X3; [by intros ? ->|by intros ? ->].
    - apply A3. by left.
  Qed.
  Lemma okget_server i : okget (dst_head c i) → okget (Server i).
  Proof using WF.
    intros Hd. destruct (okget_all (deps (Server i))) as [f0 Hok].
    { intros m Hm. simpl in Hm.
      repeat (apply elem_of_cons in Hm as [->|Hm]; [try done; by apply okget_leaf|]).
      by apply elem_of_nil in Hm. }
    apply (okget_new _ f0). intros f Hf p e s V Hp Hk Hn _.
    assert (∃ q, p = Some q) as [q ->] by (destruct p; [eauto|done]).
    assert (home i = q) as Hh. { simpl in Hk. by apply (wf_children _ _ WF) in Hk as [_ ?]. }
    destruct (getl_ok f (Some q) (deps (Server i)) s
      (λ rs s1, make (Some q) (Server i) rs (serve i (Some q, Server i) s1)) V Hp) as (s1&E1&V1&X1&A1).
    { intros m Hm. split; [|by apply Hok]. by apply (asks_reqs q (Server i)). }
    destruct (get_node f (Some q) (Server i) e s s1
      (alloc (Some q, Server i) (holds (Some q) (Server i)) (serve i (Some q, Server i) s1)))
      as (s3&E3&(V3&A3&X3)&_); try done.
    { by apply (e_dom _ _ X1). }
    { split; simpl; try done; auto.
      - intros r Hr. destruct (decide (r = (Some q, Server i))) as [->|]; [by rewrite lookup_insert|].
        by rewrite lookup_insert_ne.
      - intros p' n' l H. apply lookup_insert_Some in H as [[E' <-]|[_ H]]; [|by left].
        right. by injection E' as <- <-.
      - by rewrite lookup_insert.
      - intros j. destruct (decide (j = i)) as [->|]; [right|left; by rewrite lookup_insert_ne].
        rewrite lookup_insert. by rewrite Hh.
      - intros j [= <-]. by rewrite lookup_insert. }
    exists s3. split_and!; try done.
    - eapply ext_trans; [done|]. by apply X3.
    - apply A3. by left.
  Qed.
  Lemma okget_check i : okget (Handler i) → okget (Check i).
  Proof using WF.
    intros [f0 Hok]. apply (okget_new _ (S (S f0))). intros f Hf p e s V Hp Hk Hn _.
    assert (∃ q, p = Some q) as [q ->] by (destruct p; [eauto|done]).
    destruct f as [|[|f]]; [lia..|].
    destruct (leaf f (Some q) (Vis i) true s V Hp Hk I (or_introl eq_refl))
      as (s1&E1&V1&X1&A1&_&U1&_).
    destruct (Hok (S (S f)) ltac:(lia) (Some q) true s1 V1) as (s2&E2&V2&X2&A2); [|done|by left|].
    { by apply (e_dom _ _ X1). }
    assert (claimed i s1 = false) as Hc.
    { unfold claimed. apply bool_decide_eq_false. rewrite U1. intros Hi.
      destruct (v_unique _ V _ Hi) as [q' Hq']. pose proof (at_asks _ _ _ V Hq') as Hl. simpl in Hl.
      assert (q' = q) as ->; [|rewrite Hn in Hq'; by destruct Hq'].
      eapply (wf_unshared _ _ WF); [| |exact Hl|exact Hk]; apply (v_need _ V); [by eapply at_space|done]. }
    destruct (get_node (S (S f)) (Some q) (Check i) e s s2 (claim i s2)) as (s3&E3&(V3&A3&X3)&_); try done.
    { unfold build. rewrite E1. unfold andthen at 1. rewrite Hc, E2. done. }
    { by apply (e_dom _ _ X2), (e_dom _ _ X1). }
    { split; simpl; try done; auto.
      - destruct A2 as [r A2]. destruct (at_val _ _ _ _ V2 A2) as (->&_&?). done.
      - intros j [Hj| Hj]%elem_of_union; [|by left]. apply elem_of_singleton in Hj as ->. by right. }
    { intros n' Hn'. simpl in Hn'. apply elem_of_cons in Hn' as [->|Hn']; [by apply (e_mono _ _ X2)|].
      by apply elem_of_list_singleton in Hn' as ->. }
    exists s3. split_and!; try done.
    - eapply ext_trans; [done|]. eapply ext_trans; [done|]. by apply X3.
    - apply A3. by left.
  Qed.
  Lemma Inv_queue g s : Inv s → Inv (set_queue g s).
  Proof. intros V. split; apply V. Qed.
  Lemma okget_svc i : okget (SrcHead i) → okget (Svc i).
  Proof using WF.
    intros [f0 Hok]. apply (okget_new _ f0). intros f Hf p e s V Hp Hk Hn _.
    assert (∃ q, p = Some q) as [q ->] by (destruct p; [eauto|done]).
    set (s0 := defer_back (JDst (Some q) i) s).
    destruct (Hok f Hf (Some q) true s0) as (s1&E1&V1&X1&A1); [by apply Inv_queue|done|done|by left|].
    destruct (get_node f (Some q) (Svc i) e s s1 s1) as (s3&E3&(V3&A3&X3)&_); try done.
    { by apply (e_dom _ _ X1). }
    { split; auto; try done.
      destruct A1 as [r A1]. destruct (at_val _ _ _ _ V1 A1) as (->&_&?). done. }
    { intros n' Hn'. simpl in Hn'. by apply elem_of_list_singleton in Hn' as ->. }
    assert (is_Some (at_ s3 (Some q) (Svc i))) as Hsome by (apply A3; by left).
    assert (JDst (Some q) i ∈ queue s1) as Hjob.
    { destruct (e_queue _ _ X1) as (l&->&_). simpl. set_solver. }
    assert (ext s0 s3) as X.
    { eapply ext_trans; [done|]. apply X3; [done|]. by intros ? [= <-]. }
    exists s3. split_and!; try done. split; try apply X.
    destruct (e_queue _ _ X) as (l&E&Hl). exists (JDst (Some q) i :: l). split.
    - rewrite E. simpl. by rewrite <-app_assoc.
    - intros j [->|Hj]%elem_of_cons; [eauto|by apply Hl].
  Qed.

  Lemma okget_dst i : okget (Check i) → ∀ k, okget (dst_below i k).
  Proof using WF.
    intros H k. induction k as [|k IH]; simpl; [by apply okget_alias|].
    apply okget_plain; [done|]. simpl. intros m ->%elem_of_list_singleton. done.
  Qed.
  Lemma okget_rpc i : remote i = true → okget (RpcClient i).
  Proof using WF.
    intros Hr. apply okget_plain; [done|]. simpl. intros m Hm.
    apply elem_of_cons in Hm as [->|Hm].
    - apply okget_alias; [done|]. unfold Deploy_Model.resolve; simpl. unfold iface. rewrite Hr.
      by apply okget_leaf.
    - apply elem_of_list_singleton in Hm as ->. by apply okget_leaf.
  Qed.
  Lemma okget_svc_of i :
    (remote i = false → okget (Handler i)) → okget (Svc i).
  Proof using WF.
    intros Hh.
    assert (∀ k, c_nsrc c i ≤ k → okget (match src_at c i k with DstName i => Check i | m => m end)) as Hb.
    { intros k Hk. destruct (src_at_cases i k) as [(?&->)|[(_&?&->)|(_&?&->)]]; [lia|by apply okget_rpc|].
      assert (okget (Check i)) as Hc by (apply okget_check; auto).
      pose proof (okget_dst i Hc (c_ndst c i)) as Hd. fold (dst_head c i) in Hd.
      destruct (dst_head_cases i) as [(_&E)|(?&_&E)]; rewrite E in *; done. }
    assert (∀ d k, c_nsrc c i ≤ k + d → okget (match src_at c i k with DstName i => Check i | m => m end)) as Ha.
    { induction d as [|d IH]; intros k Hk; [apply Hb; lia|].
      destruct (src_at_cases i k) as [(?&E)|[(?&_)|(?&_)]]; [|by apply Hb..].
      rewrite E. apply okget_plain; [done|]. simpl. intros m ->%elem_of_list_singleton.
      apply okget_alias; [done|]. rewrite resolve_next. apply IH. lia. }
    apply okget_svc, okget_alias; [done|]. rewrite resolve_head. by apply (Ha (c_nsrc c i)).
  Qed.
  Lemma okget_handler i : okget (Handler i).
  Proof using WF.
    destruct (wf_acyclic _ _ WF) as [rank Hrank].
    assert (∀ x i, rank i < x → okget (Handler i)) as H; [|by apply (H (S (rank i))); lia].
    clear i. induction x as [|x IH]; intros i Hi; [lia|].
    apply okget_plain; [done|]. simpl. intros m (j&->&Hj)%elem_of_list_fmap.
    apply okget_svc_of. intros Hl. apply IH. specialize (Hrank _ _ Hj Hl). lia.
  Qed.
  Lemma okget_servers i : okget (Server i).
  Proof using WF. apply okget_server, okget_dst, okget_check, okget_handler. Qed.

  (** ** Creating a process *)
  Record extP (h : nat) (s s' : st) : Prop := {
    x_dom p : is_Some (spaces s' !! p) ↔ p = Some h ∨ is_Some (spaces s !! p);
    x_mono p n : is_Some (at_ s p n) → is_Some (at_ s' p n);
    x_proc q : is_Some (at_ s' None (Proc q)) ↔ q = h ∨ is_Some (at_ s None (Proc q));
    x_queue : ∃ l, queue s' = JChildren h :: queue s ++ l ∧
      ∀ j, j ∈ l → ∃ p i, j = JDst p i ∧ is_Some (at_ s' p (Svc i));
    x_std : is_Some (at_ s' (Some h) (Metric h)) ∧ is_Some (at_ s' (Some h) (Logger h));
    x_svc p j : is_Some (at_ s' p (Svc j)) → is_Some (at_ s p (Svc j)) ∨ JDst p j ∈ queue s';
    x_served i : served s' !! i = served s !! i ∨ is_Some (at_ s' (Some (home i)) (Server i)) }.
  Lemma extP_ext h s1 s2 s3 : extP h s1 s2 → ext s2 s3 → extP h s1 s3.
  Proof.
    intros A B. split.
    - intros p. rewrite <-(e_dom _ _ B). apply (x_dom _ _ _ A).
    - intros p n H. by apply (e_mono _ _ B), (x_mono _ _ _ A).
    - intros q. rewrite <-(x_proc _ _ _ A). split; [apply (e_proc _ _ B)|apply (e_mono _ _ B)].
    - destruct (x_queue _ _ _ A) as (l1&E1&H1), (e_queue _ _ B) as (l2&E2&H2).
      exists (l1 ++ l2). rewrite E2, E1. simpl. rewrite app_assoc. split; [done|].
      intros j [Hj|Hj]%elem_of_app; [|by apply H2].
      destruct (H1 _ Hj) as (p&i&->&H). exists p, i. split; [done|]. by apply (e_mono _ _ B).
    - destruct (x_std _ _ _ A). split; by apply (e_mono _ _ B).
    - intros p j H. apply (e_svc _ _ B) in H as [H|H]; [|by right].
      apply (x_svc _ _ _ A) in H as [H|H]; [by left|right].
      destruct (e_queue _ _ B) as (l&->&_). set_solver.
    - intros i. destruct (e_served _ _ B i) as [->|H]; [|by right].
      destruct (x_served _ _ _ A i) as [->|H]; [by left|right]. by apply (e_mono _ _ B).
  Qed.

  Lemma okspace_empty p h : okspace p (Nspace ∅ ∅ [] []) h.
  Proof.
    split; simpl; intros;
      repeat match goal with
      | H : context [∅ !! _] |- _ => rewrite lookup_empty in H
      | H : is_Some None |- _ => by destruct H
      | H : _ ∈ [] |- _ => by apply elem_of_nil in H
      | H : _ ∈ ∅ |- _ => by apply elem_of_empty in H end;
      try done; constructor.
  Qed.

  Lemma get_proc f q e s :
    Inv s → needed q → at_ s None (Proc q) = None → spaces s !! Some q = None →
    ∃ s', get c (S (S (S f))) None (Proc q) e s = Ok (None, Proc q) s' ∧ Inv s' ∧ extP q s s'.
  Proof using WF.
    intros V Hq Hn Hsp.
    set (s1 := defer_front (JChildren q) (set_spaces (insert (Some q) (Nspace ∅ ∅ [] [])) s)).
    assert (∀ p n, at_ s1 p n = at_ s p n) as Hat.
    { intros p n. unfold at_, s1. simpl. destruct (decide (p = Some q)) as [->|].
      - rewrite lookup_insert. unfold space in *. rewrite Hsp. simpl. apply lookup_empty.
      - by rewrite lookup_insert_ne. }
    assert (∀ p, is_Some (spaces s1 !! p) ↔ p = Some q ∨ is_Some (spaces s !! p)) as Hdom.
    { intros p. unfold s1; simpl. destruct (decide (p = Some q)) as [->|].
      - rewrite lookup_insert. naive_solver.
      - rewrite lookup_insert_ne by done. naive_solver. }
    assert (Inv s1) as V1.
    { split.
      - apply Hdom. right. apply V.
      - intros p x Hx. unfold s1 in Hx; simpl in Hx.
        apply lookup_insert_Some in Hx as [[<- <-]|[_ Hx]]; [apply okspace_empty|by apply (v_space _ V)].
      - intros q' H. apply Hdom in H as [[= ->]|H]; [done|by apply (v_need _ V)].
      - intros q' n. rewrite !Hat. apply (v_up _ V).
      - apply (v_heap _ V).
      - apply (v_served _ V).
      - intros p i. rewrite Hat. apply (v_server _ V).
      - intros p i. rewrite !Hat. apply (v_enter _ V).
      - intros i Hi. destruct (v_unique _ V _ Hi) as [q' ?]. exists q'. by rewrite Hat. }
    destruct (leaf f (Some q) (Metric q) true s1 V1) as (s2&E2&V2&X2&A2&Q2&U2&S2&O2&_);
      [apply Hdom; by left|done|done|by left|].
    destruct (leaf f (Some q) (Logger q) true s2 V2) as (s3&E3&V3&X3&A3&Q3&U3&S3&O3&_);
      [apply (e_dom _ _ X2), Hdom; by left|done|done|by left|].
    assert (ext s1 s3) as X by by eapply ext_trans.
    destruct (get_node (S (S f)) None (Proc q) e s s3 (alloc (None, Proc q) (holds None (Proc q)) s3))
      as (s4&E4&(V4&A4&_)&Q4&S4&_&Sp4); try done.
    { apply V. }
    { change (rf None (Proc q)) with ((None, Proc q) : ref). unfold build, derive.
      unfold space in *. rewrite Hsp. fold s1. simpl. simpl in E2, E3. unfold space in *. rewrite E2.
      simpl. rewrite E3. done. }
    { apply (e_dom _ _ X), Hdom. right. apply V. }
    { by apply post_make. }
    { intros n' Hn'. by apply elem_of_nil in Hn'. }
    exists s4. split_and!; try done.
    assert (∀ p n, is_Some (at_ s4 p n) → n ≠ Metric q → n ≠ Logger q → (p = None ∧ n = Proc q) ∨ is_Some (at_ s p n))
      as Hinv.
    { intros p n H N1 N2. apply A4 in H as [H|H]; [by left|right].
      apply O3 in H; [|done]. apply O2 in H; [|done]. by rewrite Hat in H. }
    split.
    - intros p. rewrite Sp4. simpl. rewrite <-Hdom, (e_dom _ _ X).
      destruct (decide (p = None)) as [->|]; [|by rewrite lookup_alter_ne].
      rewrite lookup_alter. by rewrite fmap_is_Some.
    - intros p n H. apply A4. right. apply (e_mono _ _ X). by rewrite Hat.
    - intros q'. split.
      + intros H. apply Hinv in H as [[_ [= ->]]|H]; [by left|by right|done|done].
      + intros [->|H]; [apply A4; by left|]. apply A4. right. apply (e_mono _ _ X). by rewrite Hat.
    - exists []. rewrite app_nil_r. split.
      + rewrite Q4. simpl. by rewrite Q3, Q2.
      + intros j Hj. by apply elem_of_nil in Hj.
    - split; apply A4; right; [by apply (e_mono _ _ X3)|done].
    - intros p j H. left. apply Hinv in H as [[_ ?]|H]; done.
    - intros i. left. rewrite S4. simpl. by rewrite S3, S2.
  Qed.

  Lemma get_enter f q i s :
    Inv s → is_Some (spaces s !! Some q) → asks (Some q) (Enter i) → served s !! i = None →
    spaces s !! Some (home i) = None → at_ s None (Proc (home i)) = None →
    okat (S (S (S f))) (Server i) →
    ∃ r s', get c (S (S (S (S (S f))))) (Some q) (Enter i) false s = Ok r s' ∧ Inv s' ∧
            extP (home i) s s' ∧ is_Some (at_ s' (Some (home i)) (Server i)).
  Proof using WF.
    intros V Hq Hk Hs Hsp Hpr Hok. set (h := home i) in *.
    assert (∀ p, at_ s p (Enter i) = None) as Hnew.
    { intros p. destruct (at_ s p (Enter i)) eqn:E; [exfalso|done].
      destruct (v_server _ V (Some h) i) as [r1 Hr1]; [|congruence].
      apply (v_enter _ V p). eauto. }
    assert (needed q) as Nq by by apply (v_need _ V).
    destruct Hk as (Hu&Hr&Hne).
    assert (needed h) as Nh by by eapply needed_call.
    destruct (get_proc f h true s V Nh Hpr Hsp) as (s1&E1&V1&X1).
    assert (is_Some (spaces s1 !! Some h)) as Hh1 by (apply (x_dom _ _ _ X1); by left).
    destruct (Hok (Some h) false s1 V1 Hh1) as (s2&E2&V2&X2&A2).
    { simpl. by apply (wf_home _ _ WF). }
    { by right. }
    destruct (get_node (S (S (S f))) None (Enter i) false s s2 s2) as (s3&E3&(V3&A3&X3)&_); try done.
    { apply V. }
    { simpl. exists q. done. }
    { unfold build. fold h. unfold space in *. rewrite E1. unfold andthen.
      destruct Hh1 as [x Hx]. unfold space in *. rewrite Hx. done. }
    { apply V2. }
    { split; auto; try done.
      - destruct A2 as [r A2]. destruct (at_val _ _ _ _ V2 A2) as (->&_&?). done.
      - by intros j [= <-]. }
    { intros n' Hn'. by apply elem_of_nil in Hn'. }
    assert (ext s2 s3) as X23 by by apply X3.
    destruct (get_edge (S (S (S (S f)))) q (Enter i) false s s3) as (s4&E4&(V4&A4&X4)&_); try done.
    { right. auto. }
    { apply (e_dom _ _ X23), (e_dom _ _ X2), (x_dom _ _ _ X1). by right. }
    { apply A3. by left. }
    { assert (is_Some (at_ s3 (Some h) (Server i))) as [r Hr'] by by apply (e_mono _ _ X23).
      destruct (at_val _ _ _ _ V3 Hr') as (->&_&?). done. }
    { intros j [= <-]. by apply (e_mono _ _ X23). }
    assert (ext s3 s4) as X34 by by apply X4.
    exists (rf (Some q) (Enter i)), s4. split_and!; try done.
    - do 3 (eapply extP_ext; [|eassumption]). done.
    - by apply (e_mono _ _ X34), (e_mono _ _ X23).
  Qed.

  (** ** Between deferred functions *)
  (* [open j]: what the deferred function [j], which is running, has still to bring about *)
  Definition children_done (s : st) (q : nat) : Prop :=
    ∀ i, i ∈ c_children c q → is_Some (at_ s (Some q) (Server i)).
  Definition reached (s : st) (j : nat) : Prop :=
    remote j = true → is_Some (at_ s (Some (home j)) (Server j)).
  Record BInv (open : option job) (s : st) : Prop := {
    b_inv : Inv s;
    b_proc q : is_Some (spaces s !! Some q) ↔ is_Some (at_ s None (Proc q));
    b_std q : is_Some (at_ s None (Proc q)) →
      is_Some (at_ s (Some q) (Metric q)) ∧ is_Some (at_ s (Some q) (Logger q));
    b_served i : is_Some (served s !! i) → is_Some (at_ s (Some (home i)) (Server i));
    b_done q : is_Some (spaces s !! Some q) →
      open = Some (JChildren q) ∨ (open = None ∧ head (queue s) = Some (JChildren q)) ∨ children_done s q;
    b_tail q : JChildren q ∉ tail (queue s);
    b_hd q : head (queue s) = Some (JChildren q) → open = None ∧ is_Some (spaces s !! Some q);
    b_dst p i : JDst p i ∈ queue s → is_Some (at_ s p (Svc i));
    b_roots n : JRoot n ∈ queue s → ∃ q, n = Proc q ∧ q ∈ roots;
    b_root q : q ∈ roots →
      open = Some (JRoot (Proc q)) ∨ JRoot (Proc q) ∈ queue s ∨ is_Some (at_ s None (Proc q));
    b_svc p j : is_Some (at_ s p (Svc j)) → open = Some (JDst p j) ∨ JDst p j ∈ queue s ∨ reached s j }.

  Definition settled (s : st) (j : job) : Prop :=
    match j with
    | JRoot n => is_Some (at_ s None n)
    | JChildren q => children_done s q
    | JDst _ i => reached s i end.

  Lemma pop s j q :
    BInv None s → queue s = j :: q → BInv (Some j) (set_queue (λ _, q) s).
  Proof.
    intros B E.
    assert (∀ h, JChildren h ∉ q) as Hno by (intros h; pose proof (b_tail _ _ B h) as H; by rewrite E in H).
    split; simpl.
    - apply Inv_queue, B.
    - apply B.
    - apply B.
    - apply B.
    - intros h H. destruct (b_done _ _ B h H) as [?|[[_ H']|H']]; [done| |by right; right].
      rewrite E in H'. simpl in H'. left. by simplify_eq.
    - intros h Hh. apply (Hno h). destruct q; [done|]. simpl in Hh. set_solver.
    - intros h Hh. exfalso. apply (Hno h). destruct q; [done|]. simpl in Hh. simplify_eq. set_solver.
    - intros p i H. apply (b_dst _ _ B). rewrite E. set_solver.
    - intros n H. apply (b_roots _ _ B). rewrite E. set_solver.
    - intros r Hr. destruct (b_root _ _ B r Hr) as [?|[H|H]]; [done| |by right; right].
      rewrite E in H. apply elem_of_cons in H as [<-|H]; [by left|by right; left].
    - intros p i Hi. destruct (b_svc _ _ B p i Hi) as [?|[H|H]]; [done| |by right; right].
      rewrite E in H. apply elem_of_cons in H as [<-|H]; [by left|by right; left].
  Qed.
  Lemma open_nochildren j s q : BInv (Some j) s → JChildren q ∉ queue s.
  Proof.
    intros B H. destruct (queue s) as [|j' l] eqn:E; [by apply elem_of_nil in H|].
    apply elem_of_cons in H as [<-|H].
    - destruct (b_hd _ _ B q) as [? _]; [by rewrite E|done].
    - apply (b_tail _ _ B q). by rewrite E.
  Qed.

  Lemma children_done_mono s s' q :
    (∀ p n, is_Some (at_ s p n) → is_Some (at_ s' p n)) → children_done s q → children_done s' q.
  Proof. intros M H i Hi. by apply M, H. Qed.

  Lemma close_ext j s s' :
    BInv (Some j) s → Inv s' → ext s s' → settled s' j → BInv None s'.
  Proof.
    intros B V X Hj. pose proof (e_mono _ _ X) as M. destruct (e_queue _ _ X) as (l&El&Hl).
    assert (∀ h, JChildren h ∉ queue s') as Hno.
    { intros h. rewrite El. intros [H|H]%elem_of_app; [by apply (open_nochildren j s h B)|].
      by destruct (Hl _ H) as (p&i&?&_). }
    split.
    - done.
    - intros q. rewrite <-(e_dom _ _ X), (b_proc _ _ B). split; [apply M|apply (e_proc _ _ X)].
    - intros q H. apply (e_proc _ _ X) in H. destruct (b_std _ _ B q H). split; by apply M.
    - intros i H. destruct (e_served _ _ X i) as [E|H']; [|done]. apply M, (b_served _ _ B). by rewrite <-E.
    - intros q H. right; right. destruct (b_done _ _ B q) as [[= ->]|[[? _]|H']]; try done.
      + by apply (e_dom _ _ X).
      + by eapply children_done_mono.
    - intros q H. apply (Hno q). destruct (queue s'); [done|]. set_solver.
    - intros q H. exfalso. apply (Hno q). destruct (queue s'); [done|]. simpl in H. simplify_eq. set_solver.
    - intros p i H. rewrite El in H. apply elem_of_app in H as [H|H]; [by apply M, (b_dst _ _ B)|].
      destruct (Hl _ H) as (?&?&[= <- <-]&?). done.
    - intros n H. rewrite El in H. apply elem_of_app in H as [H|H]; [by apply (b_roots _ _ B)|].
      by destruct (Hl _ H) as (p&i&?&_).
    - intros q H. right. destruct (b_root _ _ B q H) as [[= ->]|[H'|H']].
      + by right.
      + left. rewrite El. set_solver.
      + right. by apply M.
    - intros p i H. right. apply (e_svc _ _ X) in H as [H|H]; [|by left].
      destruct (b_svc _ _ B p i H) as [[= ->]|[H'|H']].
      + by right.
      + left. rewrite El. set_solver.
      + right. intros Hr. by apply M, H'.
  Qed.

  Lemma open_ext j s s' :
    BInv (Some j) s → Inv s' → ext s s' → BInv (Some j) s'.
  Proof.
    intros B V X. pose proof (e_mono _ _ X) as M. destruct (e_queue _ _ X) as (l&El&Hl).
    assert (∀ h, JChildren h ∉ queue s') as Hno.
    { intros h. rewrite El. intros [H|H]%elem_of_app; [by apply (open_nochildren j s h B)|].
      by destruct (Hl _ H) as (p&i&?&_). }
    split.
    - done.
    - intros q. rewrite <-(e_dom _ _ X), (b_proc _ _ B). split; [apply M|apply (e_proc _ _ X)].
    - intros q H. apply (e_proc _ _ X) in H. destruct (b_std _ _ B q H). split; by apply M.
    - intros i H. destruct (e_served _ _ X i) as [E|H']; [|done]. apply M, (b_served _ _ B). by rewrite <-E.
    - intros q H. destruct (b_done _ _ B q) as [?|[[? _]|H']]; try done.
      + by apply (e_dom _ _ X).
      + by left.
      + right; right. by eapply children_done_mono.
    - intros q H. apply (Hno q). destruct (queue s'); [done|]. set_solver.
    - intros q H. exfalso. apply (Hno q). destruct (queue s'); [done|]. simpl in H. simplify_eq. set_solver.
    - intros p i H. rewrite El in H. apply elem_of_app in H as [H|H]; [by apply M, (b_dst _ _ B)|].
      destruct (Hl _ H) as (?&?&[= <- <-]&?). done.
    - intros n H. rewrite El in H. apply elem_of_app in H as [H|H]; [by apply (b_roots _ _ B)|].
      by destruct (Hl _ H) as (p&i&?&_).
    - intros q H. destruct (b_root _ _ B q H) as [?|[H'|H']]; [by left|right..].
      + left. rewrite El. set_solver.
      + right. by apply M.
    - intros p i H. apply (e_svc _ _ X) in H as [H|H]; [|by right; left].
      destruct (b_svc _ _ B p i H) as [?|[H'|H']]; [by left|right..].
      + left. rewrite El. set_solver.
      + right. intros Hr. by apply M, H'.
  Qed.

  Lemma close_extP h j s s' :
    BInv (Some j) s → Inv s' → extP h s s' → (∀ q, j ≠ JChildren q) → settled s' j → BInv None s'.
  Proof.
    intros B V X Hnc Hj. pose proof (x_mono _ _ _ X) as M. destruct (x_queue _ _ _ X) as (l&El&Hl).
    assert (∀ h, JChildren h ∉ queue s ++ l) as Hno.
    { intros h'. intros [H|H]%elem_of_app; [by apply (open_nochildren j s h' B)|].
      by destruct (Hl _ H) as (p&i&?&_). }
    assert (∀ j, j ∈ queue s' → j = JChildren h ∨ j ∈ queue s ∨ j ∈ l) as Hin by (rewrite El; set_solver).
    split.
    - done.
    - intros q. rewrite (x_dom _ _ _ X), (x_proc _ _ _ X), (b_proc _ _ B). naive_solver.
    - intros q H. apply (x_proc _ _ _ X) in H as [->|H]; [apply (x_std _ _ _ X)|].
      destruct (b_std _ _ B q H). split; by apply M.
    - intros i H. destruct (x_served _ _ _ X i) as [E|H']; [|done]. apply M, (b_served _ _ B). by rewrite <-E.
    - intros q H. right. apply (x_dom _ _ _ X) in H as [[= ->]|H]; [left; by rewrite El|right].
      destruct (b_done _ _ B q H) as [[= ->]|[[? _]|H']]; try done.
      by eapply children_done_mono.
    - intros q. rewrite El. simpl. apply Hno.
    - intros q H. rewrite El in H. simpl in H. simplify_eq. split; [done|]. apply (x_dom _ _ _ X). by left.
    - intros p i H. apply Hin in H as [?|[H|H]]; [done|by apply M, (b_dst _ _ B)|].
      destruct (Hl _ H) as (?&?&[= <- <-]&?). done.
    - intros n H. apply Hin in H as [?|[H|H]]; [done|by apply (b_roots _ _ B)|].
      by destruct (Hl _ H) as (p&i&?&_).
    - intros q H. right. destruct (b_root _ _ B q H) as [[= ->]|[H'|H']].
      + by right.
      + left. rewrite El. set_solver.
      + right. by apply M.
    - intros p i H. right. apply (x_svc _ _ _ X) in H as [H|H]; [|by left].
      destruct (b_svc _ _ B p i H) as [[= ->]|[H'|H']].
      + by right.
      + left. rewrite El. set_solver.
      + right. intros Hr. by apply M, H'.
  Qed.

  (** Following a pointer inside a process. *)
  Lemma reach_dst s p i k : Inv s → is_Some (at_ s p (dst_below i k)) → is_Some (at_ s p (Handler i)).
  Proof.
    intros V. induction k as [|k IH]; simpl; intros H.
    - assert (is_Some (at_ s p (Check i))) as H' by (eapply at_reqs; [done|exact H|simpl; set_solver]).
      eapply at_reqs; [done|exact H'|simpl; set_solver].
    - apply IH. eapply at_reqs; [done|exact H|simpl; set_solver].
  Qed.
  Lemma reach_src_at s p i k :
    Inv s → is_Some (at_ s p (match src_at c i k with DstName i => Check i | m => m end)) →
    is_Some (at_ s p (if remote i then Addr i else resolve (dst_head c i))).
  Proof.
    intros V. remember (c_nsrc c i - k) as d eqn:Ed. revert k Ed. induction d as [|d IH]; intros k Ed H.
    - destruct (src_at_cases i k) as [(?&E)|[(_&Hr&E)|(_&Hr&E)]]; [lia|..]; rewrite E in H; rewrite Hr.
      + assert (is_Some (at_ s p (RpcNext i))) as H' by (eapply at_reqs; [done|exact H|simpl; set_solver]).
        eapply at_reqs; [done|exact H'|]. simpl. unfold Deploy_Model.resolve; simpl. unfold iface. rewrite Hr.
        set_solver.
      + by destruct (dst_head_cases i) as [(_&Ed')|(?&_&Ed')]; rewrite Ed' in *.
    - destruct (src_at_cases i k) as [(?&E)|[(?&_)|(?&_)]]; [|lia..]. rewrite E in H.
      assert (is_Some (at_ s p (SrcNext i k))) as H' by (eapply at_reqs; [done|exact H|simpl; set_solver]).
      apply (IH (S k)); [lia|]. rewrite <-resolve_next. eapply at_reqs; [done|exact H'|simpl; set_solver].
  Qed.
  Lemma reach_svc s p i :
    Inv s → is_Some (at_ s p (Svc i)) →
    is_Some (at_ s p (if remote i then Addr i else resolve (dst_head c i))).
  Proof.
    intros V H. apply (reach_src_at s p i 0 V).
    assert (is_Some (at_ s p (SrcHead i))) as H' by (eapply at_reqs; [done|exact H|simpl; set_solver]).
    rewrite <-resolve_head. eapply at_reqs; [done|exact H'|simpl; set_solver].
  Qed.

  (** ** Running a deferred function *)
  Definition pmono (s s' : st) : Prop :=
    ∀ q, is_Some (at_ s None (Proc q)) → is_Some (at_ s' None (Proc q)).
  Definition progress (j : job) (q : list job) (s s' : st) : Prop :=
    pmono s s' ∧
    ((queue s' = q ∧ ∀ h, JChildren h ∉ q) ∨
     (∃ h, needed h ∧ at_ s None (Proc h) = None ∧ is_Some (at_ s' None (Proc h))) ∨
     ((∃ h, j = JChildren h) ∧ ∀ h, JChildren h ∉ queue s')).

  Lemma job_ok f j q s :
    (∀ q i, needed q → i ∈ c_children c q → ∀ f', f ≤ f' → okat f' (Server i)) →
    BInv None s → queue s = j :: q →
    ∃ r s', run_job c (5 + f) j (set_queue (λ _, q) s) = Ok r s' ∧ BInv None s' ∧ progress j q s s'.
  Proof using WF.
    intros HF B Eq. pose proof (pop s j q B Eq) as B0.
    assert (∀ p n, is_Some (at_ s p n) ↔ is_Some (at_ (set_queue (λ _, q) s) p n)) as Hs0 by done.
    assert (pmono s (set_queue (λ _, q) s)) as PM0 by (intros ? ?; done).
    assert (∀ n, at_ s None n = at_ (set_queue (λ _, q) s) None n) as Hat by done.
    assert (∀ p i, JDst p i ∈ queue s → is_Some (at_ s p (Svc i))) as Hdst by apply B.
    assert (∀ n, JRoot n ∈ queue s → ∃ q, n = Proc q ∧ q ∈ roots) as Hroots by apply B.
    assert (∀ h, JChildren h ∉ q) as Hnoq by (intros h; by apply (open_nochildren j _ h B0)).
    assert (∀ h, j = JChildren h → is_Some (spaces s !! Some h)) as Hhd.
    { intros h ->. apply (b_hd _ _ B). by rewrite Eq. }
    change (queue s) with (queue s) in Eq.
    set (s0 := set_queue (λ _, q) s) in *.
    assert (queue s0 = q) as Eq0 by done.
    destruct j as [n|h|p i].
    - destruct (Hroots n) as (h&->&Hh); [rewrite Eq; set_solver|].
      destruct (at_ s None (Proc h)) as [r|] eqn:E.
      + exists (None, Proc 0), s0. split_and!.
        * unfold run_job, getl. rewrite Nat.add_succ_l. rewrite (get_seen _ _ _ _ _ r) by done. done.
        * eapply close_ext; [exact B0|apply B0|apply ext_refl|]. simpl. rewrite <-Hat, E. eauto.
        * split; [done|]. by left.
      + assert (spaces s0 !! Some h = None) as Hsp.
        { destruct (spaces s0 !! Some h) as [x|] eqn:E'; [|done]. exfalso.
          destruct (b_proc _ _ B0 h) as [H _]. rewrite <-Hat, E in H.
          destruct H as [? ?]; [by exists x|done]. }
        destruct (get_proc (2 + f) h true s0) as (s1&E1&V1&X1); try done.
        { apply B0. } { by apply needed_root. }
        assert (is_Some (at_ s1 None (Proc h))) as Hp by (apply (x_proc _ _ _ X1); by left).
        exists (None, Proc 0), s1. split_and!.
        * unfold run_job, getl. change (5 + f) with (S (S (S (2 + f)))). by rewrite E1.
        * by eapply close_extP.
        * split; [intros ? ?; apply (x_mono _ _ _ X1); by rewrite <-Hat|]. right; left. exists h. split_and!; [by apply needed_root|done..].
    - assert (is_Some (spaces s0 !! Some h)) as Hh by by apply Hhd.
      assert (needed h) as Nh by by apply (v_need _ (b_inv _ _ B0)).
      destruct (getl_ok (5 + f) (Some h) (Server <$> c_children c h) s0 (λ _ s1, Ok (None, Proc 0) s1))
        as (s1&E1&V1&X1&A1); [apply B0|done| |].
      { intros m (i&->&Hi)%elem_of_list_fmap. split; [done|]. apply (HF h); [done..|lia]. }
      exists (None, Proc 0), s1. split_and!; [done|..].
      + eapply close_ext; try done. intros i Hi. apply A1. apply elem_of_list_fmap. eauto.
      + split; [intros ? ?; by apply (e_mono _ _ X1)|]. right; right. split; [eauto|].
        intros h'. destruct (e_queue _ _ X1) as (l&->&Hl).
        intros [H|H]%elem_of_app; [by apply (Hnoq h')|]. by destruct (Hl _ H) as (?&?&?&_).
    - assert (is_Some (at_ s0 p (Svc i))) as Hsvc by (apply Hdst; rewrite Eq; set_solver).
      pose proof (b_inv _ _ B0) as V0.
      pose proof (at_asks _ _ _ V0 Hsvc) as Hk. destruct p as [h|]; [|done]. simpl in Hk.
      pose proof (at_space _ _ _ Hsvc) as Hh.
      pose proof (reach_svc _ _ _ V0 Hsvc) as Hreach.
      destruct (remote i) eqn:Hr.
      + destruct (leaf (3 + f) (Some h) (Addr i) true s0 V0 Hh) as (s1&E1&V1&X1&A1&Q1&U1&S1&O1&_);
          [simpl; by right|done|by left|].
        assert (BInv (Some (JDst (Some h) i)) s1) as B1 by by eapply open_ext.
        destruct (served s1 !! i) as [r|] eqn:Es.
        * exists (rf (Some h) (Addr i)), s1. split_and!.
          { unfold run_job, iface. rewrite Hr. change (5 + f) with (S (S (3 + f))). rewrite E1. simpl.
            by rewrite Es. }
          { apply (close_ext (JDst (Some h) i) s0 s1); [done..|]. simpl. intros _. apply (e_mono _ _ X1), (b_served _ _ B0).
            rewrite <-S1, Es. eauto. }
          { split; [intros ? ?; by apply (e_mono _ _ X1)|]. left. by rewrite Q1. }
        * assert (spaces s1 !! Some (home i) = None) as Hsp.
          { destruct (spaces s1 !! Some (home i)) as [x|] eqn:E'; [|done]. exfalso.
            destruct (b_done _ _ B1 (home i)) as [?|[[? _]|Hd]]; try done.
            destruct (v_server _ V1 (Some (home i)) i) as [r Hr']; [|congruence].
            apply Hd. by apply (wf_home _ _ WF). }
          assert (is_Some (spaces s1 !! Some h)) as Hh1 by by apply (e_dom _ _ X1).
          assert (home i ≠ h) as Hne.
          { intros <-. destruct Hh1 as [y Hy]. by pose proof (eq_trans (eq_sym Hy) Hsp). }
          assert (at_ s1 None (Proc (home i)) = None) as Hpr.
          { destruct (at_ s1 None (Proc (home i))) as [r|] eqn:E'; [|done]. exfalso.
            destruct (b_proc _ _ B1 (home i)) as [_ H]. rewrite E' in H.
            destruct H as [y Hy]; [by eauto|]. by pose proof (eq_trans (eq_sym Hy) Hsp). }
          assert (needed (home i)) as Nh.
          { eapply needed_call; [|exact Hk|done]. by apply (v_need _ V1). }
          destruct (get_enter f h i s1 V1 Hh1) as (r&s2&E2&V2&X2&A2); try done.
          { apply (HF (home i)); [done|by apply (wf_home _ _ WF)|lia]. }
          assert (is_Some (served s2 !! i)) as [r' Hr'] by by eapply (v_server _ V2).
          exists (rf (Some h) (Addr i)), s2. split_and!.
          { assert (iface c i = Addr i) as Ei by (unfold iface; by rewrite Hr).
            assert (dst_modifier0 c i = Enter i) as Em by (unfold dst_modifier0; by rewrite Hr).
            unfold run_job. rewrite Ei, Em. change (5 + f) with (S (S (S (S (S f))))).
            change (S (S (3 + f))) with (S (S (S (S (S f))))) in E1. rewrite E1. unfold andthen.
            change ((rf (Some h) (Addr i)).2) with (Addr i). lazy beta iota. rewrite Es.
            rewrite E2. by rewrite Hr'. }
          { apply (close_extP (home i) (JDst (Some h) i) s1 s2); [done..|]. simpl. by intros _. }
          { split; [intros ? ?; apply (x_mono _ _ _ X2); by apply (e_mono _ _ X1)|].
            right; left. exists (home i). split_and!; [done| |apply (x_proc _ _ _ X2); by left].
            destruct (at_ s None (Proc (home i))) eqn:E'; [|done]. exfalso.
            assert (is_Some (at_ s1 None (Proc (home i)))) as [? ?]; [|congruence].
            apply (e_mono _ _ X1). rewrite <-Hat, E'. eauto. }
      + assert (∃ r s1, get c (5 + f) (Some h) (dst_head c i) true s0 = Ok r s1 ∧ Inv s1 ∧ ext s0 s1 ∧
          queue s1 = q ∧ r = rf (Some h) (dst_head c i)) as (r&s1&E1&V1&X1&Q1&->).
        { destruct (dst_head_cases i) as [(_&E)|(k&_&E)]; rewrite E in *.
          - destruct (at_ s0 (Some h) (DstName i)) as [r|] eqn:Ed.
            + destruct (at_val _ _ _ _ V0 Ed) as (->&_).
              exists (rf (Some h) (DstName i)), s0. split_and!; [by apply get_seen|done|apply ext_refl|done..].
            + destruct Hreach as [r Hr']. destruct (at_val _ _ _ _ V0 Hr') as (->&_).
              destruct (get_alias (4 + f) (Some h) (DstName i) true s0 s0) as (s3&E3&(V3&A3&X3)&Q3); try done.
              { simpl. by apply uses_local_lives. }
              { apply (get_seen (3 + f)). done. }
              exists (rf (Some h) (DstName i)), s3. split_and!; [done|done|by apply X3|done..].
          - destruct Hreach as [r Hr']. destruct (at_val _ _ _ _ V0 Hr') as (->&_).
            exists (rf (Some h) (Dst i k)), s0. split_and!; [by apply get_seen|done|apply ext_refl|done..]. }
        exists (rf (Some h) (dst_head c i)), s1. split_and!.
        { unfold run_job, iface. rewrite Hr. unfold space in *. rewrite E1. simpl.
          rewrite rf_snd. by destruct (dst_head_cases i) as [(_&->)|(k&_&->)]. }
        { eapply close_ext; try done. simpl. intros ?. congruence. }
        { split; [intros ? ?; by apply (e_mono _ _ X1)|]. left. done. }
  Qed.

  (** ** Running them all *)
  Definition unseen (procs : list nat) (s : st) : nat :=
    length (filter (λ q, at_ s None (Proc q) = None) procs).
  Lemma unseen_mono procs s s' : pmono s s' → unseen procs s' ≤ unseen procs s.
  Proof.
    intros H. unfold unseen. induction procs as [|q l IH]; [done|].
    rewrite !filter_cons. destruct (decide (at_ s' None (Proc q) = None)) as [E'|E'], (decide (at_ s None (Proc q) = None)) as [E|E];
      simpl; try lia.
    exfalso. destruct (H q) as [? ?]; [|congruence]. by apply not_eq_None_Some.
  Qed.
  Lemma unseen_less procs s s' h :
    pmono s s' → h ∈ procs → at_ s None (Proc h) = None → is_Some (at_ s' None (Proc h)) →
    unseen procs s' < unseen procs s.
  Proof.
    intros H Hin Hn Hs. unfold unseen. induction procs as [|q l IH]; [by apply elem_of_nil in Hin|].
    pose proof (unseen_mono l s s' H) as Hle. unfold unseen in Hle.
    rewrite !filter_cons. apply elem_of_cons in Hin as [<-|Hin].
    - rewrite decide_False by (by apply not_eq_None_Some). rewrite decide_True by done. simpl. lia.
    - specialize (IH Hin).
      destruct (decide (at_ s' None (Proc q) = None)) as [E'|E'], (decide (at_ s None (Proc q) = None)) as [E|E];
        simpl; try lia.
      exfalso. destruct (H q) as [? ?]; [|congruence]. by apply not_eq_None_Some.
  Qed.

  Definition finishes (f : nat) (s : st) : Prop :=
    ∃ k r s', run c f k s = Ok r s' ∧ BInv None s' ∧ queue s' = [].
  Lemma run_step f j q s r s1 :
    queue s = j :: q → run_job c f j (set_queue (λ _, q) s) = Ok r s1 → finishes f s1 → finishes f s.
  Proof.
    intros Eq E (k&r'&s'&Hr&B&Hq). exists (S k), r', s'. split; [|done].
    simpl. rewrite Eq. by rewrite E.
  Qed.
  Lemma run_ok f (procs : list nat) :
    (∀ q i, needed q → i ∈ c_children c q → ∀ f', f ≤ f' → okat f' (Server i)) →
    (∀ q, needed q → q ∈ procs) →
    ∀ s, BInv None s → finishes (5 + f) s.
  Proof using WF.
    intros HF Hprocs.
    assert (∀ u s, unseen procs s < u → BInv None s → finishes (5 + f) s) as H.
    2:{ intros s B. apply (H (S (unseen procs s))); [lia|done]. }
    induction u as [|u IHu]; [lia|].
    assert (∀ l s, length (queue s) < l → unseen procs s < S u → BInv None s →
      (∀ h, JChildren h ∉ queue s) → finishes (5 + f) s) as HA.
    { induction l as [|l IHl]; [lia|]. intros s Hl Hu B Hno.
      destruct (queue s) as [|j q] eqn:Eq.
      { exists 0, (None, Proc 0), s. split_and!; [|done|done]. simpl. by rewrite Eq. }
      destruct (job_ok f j q s HF B Eq) as (r&s'&E&B'&PM&P).
      eapply run_step; [done|exact E|].
      pose proof (unseen_mono procs _ _ PM).
      destruct P as [[E' Hnq]|[(h&Nh&H1&H2)|[[h ->] _]]].
      - apply IHl; [|lia|done|by rewrite E']. rewrite E'. simpl in Hl. lia.
      - apply IHu; [|done]. pose proof (unseen_less procs _ _ h PM (Hprocs _ Nh) H1 H2). lia.
      - exfalso. apply (Hno h). set_solver. }
    intros s Hu B.
    destruct (queue s) as [|j q] eqn:Eq.
    { exists 0, (None, Proc 0), s. split_and!; [|done|done]. simpl. by rewrite Eq. }
    destruct (job_ok f j q s HF B Eq) as (r&s'&E&B'&PM&P).
    eapply run_step; [done|exact E|].
    pose proof (unseen_mono procs _ _ PM).
    destruct P as [[E' Hnq]|[(h&Nh&H1&H2)|[_ Hno]]].
    - apply (HA (S (length (queue s')))); [lia|lia|done|by rewrite E'].
    - apply IHu; [|done]. pose proof (unseen_less procs _ _ h PM (Hprocs _ Nh) H1 H2). lia.
    - apply (HA (S (length (queue s')))); [lia|lia|done|done].
  Qed.

  Lemma start_ok : BInv None (start (Proc <$> roots)).
  Proof.
    assert (∀ p n, at_ (start (Proc <$> roots)) p n = None) as Hat.
    { intros p n. unfold at_, start. simpl. destruct (decide (p = None)) as [->|].
      - rewrite lookup_singleton. simpl. apply lookup_empty.
      - by rewrite lookup_singleton_ne. }
    assert (∀ q, spaces (start (Proc <$> roots)) !! Some q = None) as Hsp.
    { intros q. simpl. by rewrite lookup_singleton_ne. }
    assert (∀ j, j ∈ queue (start (Proc <$> roots)) → ∃ q, j = JRoot (Proc q) ∧ q ∈ roots) as Hq.
    { intros j Hj. simpl in Hj. apply elem_of_list_fmap in Hj as (n&->&Hn).
      apply elem_of_list_In, in_rev, elem_of_list_In in Hn. apply elem_of_list_fmap in Hn as (q&->&?). eauto. }
    split.
    - split; simpl.
      + rewrite lookup_singleton. eauto.
      + intros p x H. apply lookup_singleton_Some in H as [<- <-]. apply okspace_empty.
      + intros q H. rewrite lookup_singleton_ne in H by done. by destruct H.
      + intros q n H. rewrite Hat in H. by destruct H.
      + intros p n l H. by rewrite lookup_empty in H.
      + intros i r H. by rewrite lookup_empty in H.
      + intros p i H. rewrite Hat in H. by destruct H.
      + intros p i H. rewrite Hat in H. by destruct H.
      + intros i H. by apply elem_of_empty in H.
    - intros q. rewrite Hat, Hsp. split; by intros [? ?].
    - intros q H. rewrite Hat in H. by destruct H.
    - intros i H. simpl in H. rewrite lookup_empty in H. by destruct H.
    - intros q H. rewrite Hsp in H. by destruct H.
    - intros q H. destruct (Hq (JChildren q)) as (?&?&_); [|done].
      destruct (queue _); [done|]. simpl in H. set_solver.
    - intros q H. destruct (Hq (JChildren q)) as (?&?&_); [|done].
      destruct (queue _); [done|]. simpl in H. simplify_eq. set_solver.
    - intros p i H. by destruct (Hq _ H) as (?&?&_).
    - intros n H. destruct (Hq _ H) as (q&E&?). injection E as ->. eauto.
    - intros q H. right; left. simpl. apply elem_of_list_fmap. exists (Proc q). split; [done|].
      apply elem_of_list_In, in_rev. rewrite rev_involutive. apply elem_of_list_In, elem_of_list_fmap. eauto.
    - intros p j H. rewrite Hat in H. by destruct H.
  Qed.

  Lemma build_ok : ∃ s, built c roots s ∧ BInv None s ∧ queue s = [].
  Proof using WF.
    destruct (wf_finite _ _ WF) as (procs&svcs&Hfin).
    destruct (okget_all (Server <$> concat (c_children c <$> procs))) as [f0 Hok].
    { intros m (i&->&_)%elem_of_list_fmap. apply okget_servers. }
    destruct (run_ok f0 procs) with (s := start (Proc <$> roots)) as (k&r&s&E&B&Hq).
    { intros q i Hq Hi f' Hf'. apply Hok; [done|]. apply elem_of_list_fmap. exists i. split; [done|].
      apply elem_of_list_In, in_concat. exists (c_children c q). split; apply elem_of_list_In; [|done].
      apply elem_of_list_fmap. exists q. split; [done|]. by apply Hfin. }
    { intros q Hq. by apply Hfin. }
    { apply start_ok. }
    exists s. split; [|done]. exists r, (5 + f0 + k). intros fuel Hf. unfold build_app.
    eapply run_more; [exact E|lia|lia].
  Qed.
  Lemma built_BInv s : built c roots s → BInv None s ∧ queue s = [].
  Proof using WF.
    intros (r&n&H). destruct build_ok as (s'&(r'&n'&H')&HB).
    specialize (H (n + n') ltac:(lia)). specialize (H' (n + n') ltac:(lia)).
    assert (s = s') as -> by congruence. done.
  Qed.

  (** ** What has been built *)
  Section final.
    Context (s : st) (B : BInv None s) (Q : queue s = []).
    Let V : Inv s := b_inv _ _ B.

    Lemma f_children q i :
      is_Some (spaces s !! Some q) → i ∈ c_children c q → is_Some (at_ s (Some q) (Server i)).
    Proof using B Q WF.
      intros H Hi. destruct (b_done _ _ B q H) as [?|[[_ H']|H']]; [done|by rewrite Q in H'|by apply H'].
    Qed.
    Lemma f_reached p j : is_Some (at_ s p (Svc j)) → reached s j.
    Proof using B Q WF.
      intros H. destruct (b_svc _ _ B p j H) as [?|[H'|H']]; [done| |done].
      rewrite Q in H'. by apply elem_of_nil in H'.
    Qed.
    Lemma f_head_handler p i : is_Some (at_ s p (resolve (dst_head c i))) → is_Some (at_ s p (Handler i)).
    Proof using B Q WF.
      intros H. destruct (dst_head_cases i) as [(_&E)|(k&_&E)]; rewrite E in H.
      - eapply at_reqs; [apply V|exact H|simpl; set_solver].
      - by apply (reach_dst s p i (S k) V).
    Qed.
    Lemma f_handler_svc p i j :
      is_Some (at_ s p (Handler i)) → j ∈ c_args c i → is_Some (at_ s p (Svc j)).
    Proof using B Q WF.
      intros H Hj. eapply at_reqs; [apply V|exact H|]. simpl. apply elem_of_list_fmap. eauto.
    Qed.
    Lemma f_lives q i : is_Some (spaces s !! Some q) → lives q i → is_Some (at_ s (Some q) (Handler i)).
    Proof using B Q WF.
      intros Hq. induction 1 as [i Hi|i j _ IH Hj Hl].
      - apply (reach_dst s (Some q) i (c_ndst c i) V).
        eapply at_reqs; [apply V|by apply f_children|]. simpl. fold (dst_head c i). set_solver.
      - apply f_head_handler. pose proof (reach_svc s (Some q) j V) as H. rewrite Hl in H. apply H.
        by eapply f_handler_svc.
    Qed.
    Lemma f_uses q j : is_Some (spaces s !! Some q) → uses q j → is_Some (at_ s (Some q) (Svc j)).
    Proof using B Q WF. intros Hq (i&Hi&Hj). eapply f_handler_svc; [by apply f_lives|done]. Qed.
    Lemma f_needed q : is_Some (spaces s !! Some q) ↔ needed q.
    Proof using B Q WF.
      split; [apply (v_need _ V)|]. induction 1 as [q Hq|q j _ IH Hu Hr].
      - apply (b_proc _ _ B). destruct (b_root _ _ B q Hq) as [?|[H|H]]; [done| |done].
        rewrite Q in H. by apply elem_of_nil in H.
      - eapply at_space. eapply f_reached; [by apply f_uses|done].
    Qed.
    Lemma f_dst p i n k : is_Some (at_ s p (dst_below i n)) → k < n → is_Some (at_ s p (Dst i k)).
    Proof using B Q WF.
      induction n as [|n IH]; [lia|]. simpl. intros H Hk.
      destruct (decide (k = n)) as [->|]; [done|]. apply IH; [|lia].
      eapply at_reqs; [apply V|exact H|simpl; set_solver].
    Qed.
    Lemma f_dst_lives q i k :
      is_Some (spaces s !! Some q) → lives q i → k < c_ndst c i → is_Some (at_ s (Some q) (Dst i k)).
    Proof using B Q WF.
      intros Hq Hl Hk. apply (f_dst _ i (c_ndst c i)); [|done]. fold (dst_head c i).
      destruct Hl as [i Hi|i j Hl Hj Hr].
      - eapply at_reqs; [apply V|by apply f_children|]. simpl. set_solver.
      - assert (is_Some (at_ s (Some q) (Svc j))) as H by (apply f_uses; [done|by exists i]).
        apply (reach_svc _ _ _ V) in H. rewrite Hr in H.
        destruct (dst_head_cases j) as [(E&_)|(k'&_&E)]; [lia|]. by rewrite E in *.
    Qed.
    Lemma f_src_from p j k k' :
      is_Some (at_ s p (match src_at c j k with DstName i => Check i | m => m end)) → k ≤ k' →
      is_Some (at_ s p (match src_at c j (if decide (k' ≤ c_nsrc c j) then k' else k) with DstName i => Check i | m => m end)).
    Proof using B Q WF.
      intros H Hk. destruct (decide (k' ≤ c_nsrc c j)) as [Hle|]; [|done].
      revert Hle. induction Hk as [|k' Hk IH]; intros Hle; [done|].
      specialize (IH ltac:(lia)). destruct (src_at_cases j k') as [(_&E)|[(?&_)|(?&_)]]; [|lia..].
      rewrite E in IH. rewrite <-resolve_next.
      assert (is_Some (at_ s p (SrcNext j k'))) as H'.
      { eapply at_reqs; [apply V|exact IH|simpl; set_solver]. }
      eapply at_reqs; [apply V|exact H'|simpl; set_solver].
    Qed.
    Lemma f_src p j k :
      is_Some (at_ s p (Svc j)) → k ≤ c_nsrc c j →
      is_Some (at_ s p (match src_at c j k with DstName i => Check i | m => m end)).
    Proof using B Q WF.
      intros H Hk.
      assert (is_Some (at_ s p (SrcHead j))) as H1 by (eapply at_reqs; [apply V|exact H|simpl; set_solver]).
      assert (is_Some (at_ s p (resolve (SrcHead j)))) as H2 by (eapply at_reqs; [apply V|exact H1|simpl; set_solver]).
      rewrite resolve_head in H2. pose proof (f_src_from p j 0 k H2) as H3.
      rewrite decide_True in H3 by done. apply H3. lia.
    Qed.
    Lemma f_client p j k : is_Some (at_ s p (Svc j)) → k < c_nsrc c j → is_Some (at_ s p (Src j k)).
    Proof using B Q WF.
      intros H Hk. apply (f_src _ _ k) in H; [|lia].
      destruct (src_at_cases j k) as [(_&E)|[(?&_)|(?&_)]]; [|lia..]. by rewrite E in H.
    Qed.
    Lemma f_rpc p j : is_Some (at_ s p (Svc j)) → remote j = true → is_Some (at_ s p (RpcClient j)).
    Proof using B Q WF.
      intros H Hr. apply (f_src _ _ (c_nsrc c j)) in H; [|lia].
      destruct (src_at_cases j (c_nsrc c j)) as [(?&_)|[(_&_&E)|(_&?&_)]]; [lia| |congruence]. by rewrite E in H.
    Qed.

    Lemma f_in_process q m :
      is_Some (spaces s !! Some q) → in_process c q m → is_Some (at_ s (Some q) m).
    Proof using B Q WF.
      intros Hq H. pose proof (b_std _ _ B q (proj1 (b_proc _ _ B q) Hq)) as [H1 H2].
      destruct H; try done.
      - by apply f_lives.
      - by apply f_dst_lives.
      - by apply f_children.
      - by apply f_client; [apply f_uses|].
      - by apply f_rpc; [apply f_uses|].
    Qed.
    Lemma in_process_own q m : in_process c q m →
      golang m = true ∧ canon m = m ∧ is_proxy m = false ∧ resolve m = m.
    Proof. by destruct 1. Qed.
    Lemma own_in_process q m :
      asksq q m → golang m = true → canon m = m → in_process c q m.
    Proof.
      intros Hk Hg Hc. destruct m; try done; simpl in Hk.
      - exfalso. rewrite canon_svc, canon_head in Hc. pose proof (clientish_src_at i 0) as H. by rewrite Hc in H.
      - exfalso. rewrite canon_head in Hc. pose proof (clientish_src_at i 0) as H. by rewrite Hc in H.
      - destruct Hk. by apply in_client.
      - exfalso. rewrite canon_next in Hc. pose proof (clientish_src_at i (S k)) as H. by rewrite Hc in H.
      - destruct Hk. by apply in_rpc_client.
      - destruct Hk as [_ Hk]. by rewrite canon_rpc in Hc.
      - by apply in_server.
      - destruct Hk. by apply in_wrapper.
      - by apply in_handler.
      - subst. apply in_metric.
      - subst. apply in_logger.
    Qed.

    Lemma f_nodes q x r :
      spaces s !! Some q = Some x → r ∈ nodes x ↔ ∃ m, r = (Some q, m) ∧ in_process c q m.
    Proof using B Q WF.
      intros Hx. pose proof (v_space _ V _ _ Hx) as K. split.
      - intros Hr. destruct (k_nodes _ _ _ K _ Hr) as (n&[r' Hs]&Hc&_&Ha&->).
        exists n. split; [done|]. apply own_in_process; try done.
        by destruct (k_seen _ _ _ K _ _ Hs) as (_&?&_).
      - intros (m&->&Hm).
        destruct (f_in_process q m) as [r Hr]; [by exists x|done|].
        destruct (in_process_own _ _ Hm) as (Hg&Hc&Hp&Hres).
        rewrite (at_seen _ _ _ _ Hx) in Hr.
        pose proof (k_node _ _ _ K m (ex_intro _ _ Hr) Hp) as H.
        rewrite rf_fst in H by done. rewrite Hc in H. apply H. by left.
    Qed.
    Lemma f_edges q x r :
      spaces s !! Some q = Some x → r ∈ edges x ↔ ∃ m, r = (None, m) ∧ configured c q m.
    Proof using B Q WF.
      intros Hx. pose proof (v_space _ V _ _ Hx) as K.
      assert (is_Some (spaces s !! Some q)) as Hq by by exists x.
      split.
      - intros Hr. destruct (k_edges _ _ _ K _ Hr) as (n&[r' Hs]&He&->&_).
        exists n. split; [done|]. destruct (k_seen _ _ _ K _ _ Hs) as (_&Hk&_).
        destruct n; try done; simpl in Hk; [destruct Hk; by apply conf_dial|by apply conf_bind].
      - intros (m&->&Hm).
        assert (is_Some (at_ s (Some q) m) ∧ is_edge m ∧ rf (Some q) m = (None, m)) as (Hs&He&Hrf).
        { destruct Hm as [i Hi|j Hu Hr]; (split; [|done]).
          - eapply at_reqs; [apply V|by apply f_children|]. simpl. set_solver.
          - eapply at_reqs; [apply V|apply f_rpc; [by apply f_uses|done]|]. simpl. set_solver. }
        rewrite (at_seen _ _ _ _ Hx) in Hs.
        pose proof (k_edge _ _ _ K m) as H. rewrite Hrf in H. by apply H.
    Qed.
    Lemma f_nodup p x : spaces s !! p = Some x → NoDup (nodes x) ∧ NoDup (edges x).
    Proof using B Q WF. intros Hx. split; [eapply k_nodup|eapply k_enodup]; by apply (v_space _ V). Qed.
    Lemma f_heap p n : is_Some (at_ s p n) → rf p n = (p, n) → heap s !! (p, n) = Some (holds p n).
    Proof using B Q WF.
      intros [r Hr] Hrf. destruct (at_val _ _ _ _ V Hr) as (->&_&[l Hl]).
      rewrite Hrf in Hl. pose proof (v_heap _ V _ _ _ Hl) as ->. done.
    Qed.
    Lemma f_served j q : is_Some (spaces s !! Some q) → uses q j → remote j = true →
      served s !! j = Some ((Some (home j), Server j) : ref).
    Proof using B Q WF.
      intros Hq Hu Hr. assert (is_Some (at_ s (Some (home j)) (Server j))) as H.
      { eapply f_reached; [by apply f_uses|done]. }
      destruct (v_server _ V _ _ H) as [r Hr']. rewrite Hr'. by rewrite (v_served _ V _ _ Hr').
    Qed.
    Lemma f_proc_node q x : spaces s !! None = Some x → (None, Proc q) ∈ nodes x ↔ needed q.
    Proof using B Q WF.
      intros Hx. pose proof (v_space _ V _ _ Hx) as K. rewrite <-f_needed, (b_proc _ _ B), (at_seen _ _ _ _ Hx).
      split.
      - intros Hr. destruct (k_nodes _ _ _ K _ Hr) as (n&Hs&_&_&_&[= <-]). done.
      - intros Hs. by apply (k_node _ _ _ K (Proc q) Hs eq_refl); right.
    Qed.

    Lemma f_below p i n : is_Some (at_ s p (dst_below i n)) → is_Some (at_ s p (DstName i)).
    Proof using B Q WF.
      induction n as [|n IH]; [done|]. simpl. intros H. apply IH.
      eapply at_reqs; [apply V|exact H|simpl; set_solver].
    Qed.
    Lemma f_vis q i : is_Some (spaces s !! Some q) → lives q i → is_Some (at_ s (Some q) (Vis i)).
    Proof using B Q WF.
      intros Hq Hl. assert (is_Some (at_ s (Some q) (Check i))) as H.
      { destruct Hl as [i Hi|i j Hl Hj Hr].
        - assert (is_Some (at_ s (Some q) (DstName i))) as H.
          { apply (f_below _ _ (c_ndst c i)). fold (dst_head c i).
            eapply at_reqs; [apply V|by apply f_children|]. simpl. set_solver. }
          eapply at_reqs; [apply V|exact H|simpl; set_solver].
        - assert (is_Some (at_ s (Some q) (Svc j))) as H by (apply f_uses; [done|by exists i]).
          apply (reach_svc _ _ _ V) in H. rewrite Hr in H.
          destruct (dst_head_cases j) as [(E&E')|(k'&_&E)]; [by rewrite E' in H|].
          rewrite E in H. apply (f_below _ _ (S k')) in H.
          eapply at_reqs; [apply V|exact H|simpl; set_solver]. }
      eapply at_reqs; [apply V|exact H|simpl; set_solver].
    Qed.
    Lemma f_app x r :
      spaces s !! None = Some x → r ∈ nodes x ↔ ∃ m, r = (None, m) ∧ in_application c roots m.
    Proof using B Q WF.
      intros Hx. pose proof (v_space _ V _ _ Hx) as K. split.
      - intros Hr. destruct (k_nodes _ _ _ K _ Hr) as (n&[r' Hs]&Hc&Hp&_&->).
        exists n. split; [done|]. destruct (k_seen _ _ _ K _ _ Hs) as (_&Ha&_).
        destruct n; try done; simpl in Ha; try (destruct Ha as (q&Hq&Ha)).
        + destruct Ha as [Ha|[Ha Hrm]]; [by eapply app_address|].
          eapply (app_address _ _ (home i)); [by eapply needed_call|by apply (wf_home _ _ WF)].
        + eapply app_dial; [done|]. destruct Ha. by apply conf_dial.
        + eapply app_bind; [done|]. by apply conf_bind.
        + by eapply app_visibility.
        + by apply app_process.
      - intros (m&->&Hm). destruct Hm as [q Hq|q i Hq Hi|q i Hq Hi|q j Hq Hj|q i Hq Hi].
        { by apply (f_proc_node q x Hx). }
        all: apply f_needed in Hq.
        all: match goal with |- (None, ?n) ∈ _ =>
               assert (is_Some (at_ s None n)) as Hn; [apply (v_up _ V q); [|done..]|] end.
        all: try (rewrite (at_seen _ _ _ _ Hx) in Hn;
                  match goal with |- (None, ?n) ∈ _ => apply (k_node _ _ _ K n Hn eq_refl); by right end).
        + eapply at_reqs; [apply V|by apply f_children|]. simpl. set_solver.
        + inversion Hi; subst. eapply at_reqs; [apply V|by apply f_children|]. simpl. set_solver.
        + inversion Hj; subst. eapply at_reqs; [apply V|apply f_rpc; [by apply f_uses|done]|]. simpl. set_solver.
        + by apply f_vis.
    Qed.

    (** The nodes a call goes through. *)
    Lemma linked_cons a b l : (∃ more, heap s !! a = Some (b :: more)) → linked s (b :: l) → linked s (a :: b :: l).
    Proof.
      intros H1 H2 [|k] x y Hx Hy; simpl in *; [by simplify_eq|]. by apply (H2 k).
    Qed.
    Lemma linked_single a : linked s [a].
    Proof. intros [|k] x y Hx Hy; simpl in *; done. Qed.
    Definition dst_node (i k : nat) : nm := match k with 0 => Handler i | S k' => Dst i k' end.
    Lemma f_handler_path q i n :
      is_Some (at_ s (Some q) (dst_below i n)) ∨ n = 0 →
      ∃ l, ((λ k, (Some q, Dst i k) : ref) <$> rev (seq 0 n)) ++ [(Some q, Handler i)] = (Some q, dst_node i n) :: l ∧
           linked s ((Some q, dst_node i n) :: l).
    Proof using B Q WF.
      induction n as [|n IH]; intros H.
      - exists []. split; [done|]. apply linked_single.
      - destruct H as [H|?]; [|done]. simpl in H.
        assert (is_Some (at_ s (Some q) (dst_below i n))) as H'.
        { eapply at_reqs; [apply V|exact H|simpl; set_solver]. }
        destruct IH as (l&E&Hl); [by left|].
        assert (rev (seq 0 (S n)) = n :: rev (seq 0 n)) as ->.
        { rewrite seq_S, rev_app_distr. done. }
        exists ((Some q, dst_node i n) :: l). split; [exact (f_equal (cons _) E)|].
        apply linked_cons; [|done]. exists [].
        refine (eq_trans (f_heap (Some q) (Dst i n) _ _) _); [done..|]. by destruct n.
    Qed.
    Lemma f_head_path q i :
      is_Some (at_ s (Some q) (resolve (dst_head c i))) →
      ∃ l, handler_path c q i = (Some q, dst_node i (c_ndst c i)) :: l ∧ linked s (handler_path c q i).
    Proof using B Q WF.
      intros H. destruct (f_handler_path q i (c_ndst c i)) as (l&E&Hl).
      { unfold dst_head in H. destruct (c_ndst c i); [by right|by left]. }
      assert (handler_path c q i = (Some q, dst_node i (c_ndst c i)) :: l) as E' by exact E.
      exists l. split; [done|]. by rewrite E'.
    Qed.
    Lemma canon_src_at j k :
      match src_at c j k with DstName i => Handler i | m => m end =
      if decide (k < c_nsrc c j) then Src j k else if remote j then RpcClient j else dst_node j (c_ndst c j).
    Proof.
      destruct (src_at_cases j k) as [(?&E)|[(?&Hr&E)|(?&Hr&E)]]; rewrite E, ?Hr;
        [by rewrite decide_True|rewrite decide_False by lia..]; [done|].
      unfold dst_head. by destruct (c_ndst c j).
    Qed.
    Lemma f_client_path q j :
      is_Some (at_ s (Some q) (Svc j)) →
      ∃ l, client_path c q j = (Some q, canon (Svc j)) :: l ∧ linked s (client_path c q j).
    Proof using B Q WF.
      intros H.
      set (tl := if remote j then [(Some q, RpcClient j)] else handler_path c q j).
      assert (∃ l, tl = (Some q, if remote j then RpcClient j else dst_node j (c_ndst c j)) :: l ∧ linked s tl) as Htl.
      { unfold tl. destruct (remote j) eqn:Hr.
        - exists []. split; [done|apply linked_single].
        - apply f_head_path. apply (reach_svc _ _ _ V) in H. by rewrite Hr in H. }
      assert (∀ d k, k + d = c_nsrc c j →
        ∃ l, ((λ k, (Some q, Src j k) : ref) <$> seq k d) ++ tl =
             (Some q, match src_at c j k with DstName i => Handler i | m => m end) :: l ∧
             linked s (((λ k, (Some q, Src j k) : ref) <$> seq k d) ++ tl)) as Hpath.
      { induction d as [|d IH]; intros k Hk.
        - destruct Htl as (l&E&Hl). exists l. simpl. rewrite canon_src_at, decide_False by lia. done.
        - destruct (IH (S k)) as (l&E&Hl); [lia|].
          exists (((λ k, (Some q, Src j k) : ref) <$> seq (S k) d) ++ tl).
          rewrite canon_src_at, decide_True by lia. split; [done|].
          rewrite E in Hl.
          assert (((λ k, (Some q, Src j k) : ref) <$> seq k (S d)) ++ tl =
            (Some q, Src j k) :: (Some q, match src_at c j (S k) with DstName i => Handler i | m => m end) :: l) as ->
            by exact (f_equal (cons _) E).
          apply linked_cons; [|done]. exists [].
          refine (eq_trans (f_heap (Some q) (Src j k) _ _) _); [apply f_client; [done|lia]|done|].
          simpl. unfold rf. rewrite canon_next.
          pose proof (clientish_src_at j (S k)) as Hcl.
          by destruct (match src_at c j (S k) with DstName i => Handler i | m => m end). }
      destruct (Hpath (c_nsrc c j) 0 eq_refl) as (l&E&Hl).
      exists l. rewrite canon_svc, canon_head. unfold client_path. by fold tl.
    Qed.
    Lemma f_handler q i :
      is_Some (spaces s !! Some q) → lives q i →
      heap s !! (Some q, Handler i) = Some ((λ j, (Some q, canon (Svc j))) <$> c_args c i).
    Proof using B Q WF.
      intros Hq Hl. refine (eq_trans (f_heap (Some q) (Handler i) _ _) _); [by apply f_lives|done|].
      simpl. f_equal. rewrite <-list_fmap_compose. apply list_fmap_ext. intros k j _. simpl.
      unfold rf. rewrite canon_svc, canon_head. pose proof (clientish_src_at j 0) as Hcl.
      by destruct (match src_at c j 0 with DstName i => Handler i | m => m end).
    Qed.
    Lemma f_rpc_heap q j :
      is_Some (spaces s !! Some q) → uses q j → remote j = true →
      heap s !! (Some q, RpcClient j) = Some [(None, Addr j); (None, Dial j)].
    Proof using B Q WF.
      intros Hq Hu Hr. refine (eq_trans (f_heap (Some q) (RpcClient j) _ _) _); [apply f_rpc; [by apply f_uses|done]|done|].
      simpl. unfold rf. by rewrite canon_rpc.
    Qed.
    Lemma f_server_heap q i :
      is_Some (spaces s !! Some q) → i ∈ c_children c q →
      ∃ l r, handler_path c q i = r :: l ∧ linked s (handler_path c q i) ∧
             heap s !! (Some q, Server i) = Some [r; (None, Addr i); (None, Bind i)].
    Proof using B Q WF.
      intros Hq Hi. pose proof (f_children q i Hq Hi) as Hs.
      assert (is_Some (at_ s (Some q) (dst_head c i))) as Hd.
      { eapply at_reqs; [apply V|exact Hs|simpl; set_solver]. }
      assert (is_Some (at_ s (Some q) (resolve (dst_head c i)))) as Hd'.
      { destruct (dst_head_cases i) as [(_&E)|(k&_&E)]; rewrite E in *; [|done].
        eapply at_reqs; [apply V|exact Hd|simpl; set_solver]. }
      destruct (f_head_path q i Hd') as (l&E&Hl). exists l, (Some q, dst_node i (c_ndst c i)).
      split_and!; [done|done|].
      refine (eq_trans (f_heap (Some q) (Server i) _ _) _); [done..|]. simpl. unfold dst_head. by destruct (c_ndst c i).
    Qed.
  End final.
End proof.
