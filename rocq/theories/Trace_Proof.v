(** * Proofs about traces *)
From Verif Require Export Trace_Spec.
Set Default Proof Using "Type".
Open Scope string_scope.
Open Scope list_scope.

(** ** Hexadecimal notation *)
Lemma hex_digit_roundtrip n : n < 16 → unhex_digit (hex_digit n) = Some n ∧ lower_hex (hex_digit n) = true.
Proof. intros H. do 16 (destruct n as [|n]; [by vm_compute|]). lia. Qed.
Lemma nat_of_ascii_lt a : nat_of_ascii a < 256.
Proof. apply nat_ascii_bounded. Qed.
Lemma hex_cons a b :
  hex (a :: b) = hex_digit (nat_of_ascii a / 16) :: hex_digit (nat_of_ascii a mod 16) :: hex b.
Proof. done. Qed.
Lemma nibbles a : nat_of_ascii a / 16 < 16 ∧ nat_of_ascii a mod 16 < 16 ∧
  ascii_of_nat (16 * (nat_of_ascii a / 16) + nat_of_ascii a mod 16) = a.
Proof.
  pose proof (nat_of_ascii_lt a). split; [|split].
  - apply Nat.div_lt_upper_bound; lia.
  - apply Nat.mod_upper_bound; lia.
  - rewrite <- Nat.div_mod by lia. apply ascii_nat_embedding.
Qed.
Lemma unhex_hex b : unhex (hex b) = Some b.
Proof.
  induction b as [|a b IH]; [done|]. rewrite hex_cons. cbn [unhex].
  destruct (nibbles a) as (H1 & H2 & H3).
  destruct (hex_digit_roundtrip _ H1) as [-> _], (hex_digit_roundtrip _ H2) as [-> _]. by rewrite IH, H3.
Qed.
Lemma hex_length b : length (hex b) = 2 * length b.
Proof. induction b as [|a b IH]; [done|]. rewrite hex_cons. simpl. rewrite IH. lia. Qed.
Lemma hex_lower b : forallb lower_hex (hex b) = true.
Proof.
  induction b as [|a b IH]; [done|]. rewrite hex_cons. cbn [forallb].
  destruct (nibbles a) as (H1 & H2 & _).
  destruct (hex_digit_roundtrip _ H1) as [_ ->], (hex_digit_roundtrip _ H2) as [_ ->]. by rewrite IH.
Qed.
Lemma id_from_hex_hex len b : length b = len → id_from_hex len (hex b) = if nonzero b then Some b else None.
Proof.
  intros Hl. unfold id_from_hex. rewrite hex_length, hex_lower, unhex_hex, bool_decide_eq_true_2 by lia. done.
Qed.

(** ** Span contexts survive the journey *)
Section tracer.
Context (T : tracer) (HT : tracer_ok T).

Definition sized (c : sc) : Prop :=
  length (sc_trace c) = 16 ∧ length (sc_span c) = 8 ∧ ts_ok T (sc_state c) = true.

Lemma get_marshal c : sized c → get_span_context T (marshal T c) = if sc_valid c then Ok c else Err.
Proof using HT.
  intros (H1 & H2 & H3). unfold get_span_context, marshal. rewrite (ok_json T HT) by done. cbn [t_trace t_span t_flags t_state t_remote].
  rewrite (id_from_hex_hex _ _ H1), (id_from_hex_hex _ _ H2). unfold sc_valid.
  destruct (nonzero (sc_trace c)); [|done]. destruct (nonzero (sc_span c)); [|done].
  rewrite unhex_hex, H3. by destruct c.
Qed.
Lemma zero_sized : sized sc_zero.
Proof using HT. repeat split. apply (ok_state T HT). Qed.

(** ** Steps of a handler *)
Lemma act_ind' (P : act → Prop) :
  (∀ l m, P (Log l m)) → (∀ svc meth n body fails, Forall P body → P (Call svc meth n body fails)) → ∀ a, P a.
Proof.
  intros HL HC. fix IH 1. intros [l m|svc meth n body fails]; [apply HL|].
  apply HC. induction body as [|a body IHb]; [constructor|]. constructor; [apply IH|exact IHb].
Qed.

Lemma run_call C svc meth n body fails x s :
  run T C (Call svc meth n body fails) x s =
  let handler x s := (run_all T C body x s, fails) in
  match inst C svc with
  | None => transport C svc n handler x s
  | Some gen => client_wrapper T C gen svc meth
      (λ x t, transport C svc n (λ x, server_wrapper T C svc meth handler x t) x) x s
  end.
Proof.
  assert (∀ x s, (fix go (l : list act) (s : st) := match l with [] => s | a :: l => go l (run T C a x s).1 end) body s
                 = run_all T C body x s) as E.
  { clear. intros x. unfold run_all. induction body as [|a l IH]; intros s; [done|]. simpl. by rewrite IH. }
  simpl. destruct (inst C svc) as [gen|].
  - unfold client_wrapper, transport, server_wrapper.
    destruct (if gen then _ else _) as [x1 s1]. destruct (remote C svc), n; cbn [fst snd]; try done;
      destruct (decide _); try (destruct (get_span_context T _)); try done;
      destruct (start T _ _ _) as [x2 s2]; rewrite ?E; done.
  - unfold transport. destruct (remote C svc), n; by rewrite ?E.
Qed.

(** The number of started spans does not go down. *)
Lemma start_next x m s : st_next (start T x m s).2 = S (st_next s).
Proof. done. Qed.
Lemma add_event_next x e s : st_next (add_event x e s) = st_next s.
Proof. unfold add_event. by destruct (c_rec x). Qed.
Lemma finish_next x s : st_next (finish x s) = st_next s.
Proof. unfold finish. destruct (st_open s !! _); [|done]. by destruct (c_rec x). Qed.

Definition mono (f : ctx → st → st * bool) : Prop := ∀ x s, st_next s ≤ st_next (f x s).1.
Lemma server_mono C svc meth h t : mono h → mono (λ x, server_wrapper T C svc meth h x t).
Proof.
  intros Hm x s. unfold server_wrapper. destruct (if decide (t = []) then _ else _) as [x'| |]; [|done|done].
  pose proof (start_next x' (iface C svc +:+ "Server_" +:+ meth) s) as E.
  destruct (start T x' _ s) as [x1 s1]. simpl in E. pose proof (Hm x1 s1). destruct (h x1 s1) as [s2 err]. simpl in *.
  rewrite finish_next. destruct err; rewrite ?add_event_next; lia.
Qed.
Lemma transport_mono C svc n f : mono f → mono (transport C svc n f).
Proof.
  intros Hm x s. unfold transport. destruct (remote C svc); [|apply Hm].
  destruct n; simpl; [apply Hm|lia|apply Hm].
Qed.
Lemma client_mono C gen svc meth g x s :
  (∀ x t s, st_next s ≤ st_next (g x t s).1) → st_next s ≤ st_next (client_wrapper T C gen svc meth g x s).1.
Proof.
  intros Hm. unfold client_wrapper. destruct gen.
  - pose proof (start_next x (base C svc +:+ "Client_" +:+ meth) s) as E.
    destruct (start T x _ s) as [x1 s1]. simpl in E. pose proof (Hm x1 (marshal T (c_sc x1)) s1).
    destruct (g x1 _ s1) as [s2 err]. simpl in *. rewrite finish_next. destruct err; rewrite ?add_event_next; lia.
  - pose proof (Hm x (marshal T (c_sc x)) s). destruct (g x _ s) as [s2 err]. simpl in *.
    destruct err; rewrite ?add_event_next; lia.
Qed.
Lemma run_all_mono C body : Forall (λ a, mono (run T C a)) body → ∀ x s, st_next s ≤ st_next (run_all T C body x s).
Proof.
  induction 1 as [|a l Ha _ IH]; intros x s; [done|]. unfold run_all in *. simpl.
  specialize (Ha x s). specialize (IH x (run T C a x s).1). lia.
Qed.
Lemma run_mono C a : mono (run T C a).
Proof.
  induction a as [l m|svc meth n body fails IH] using act_ind'; intros x s.
  - simpl. rewrite add_event_next. lia.
  - rewrite run_call. cbv zeta. pose proof (run_all_mono C body IH) as Hb. destruct (inst C svc) as [gen|].
    + apply client_mono. intros x' t s'. apply (transport_mono C svc n). apply server_mono. intros ??. apply Hb.
    + apply (transport_mono C svc n). intros ??. apply Hb.
Qed.
Lemma run_all_next C l x s : st_next s ≤ st_next (run_all T C l x s).
Proof. apply run_all_mono. apply Forall_forall. intros a _. apply run_mono. Qed.

(** ** What a step contributes *)
Fixpoint lmap {A B} (f : A → B) (t : ltree A) : ltree B :=
  match t with LNode i n e ks => LNode (f i) n e (map (lmap f) ks) end.
Definition root {A} (t : ltree A) : A := match t with LNode i _ _ _ => i end.

Definition par (c : sc) : option (bytes * bytes) := if sc_valid c then Some (sc_trace c, sc_span c) else None.
Definition krows (c : sc) (t : ltree nat) : list row :=
  rows (if sc_valid c then sc_trace c else new_tid T (root t)) (par c) (lmap (new_sid T) t).
Definition add_all (es : list event) (p : span) : span := Span (s_name p) (s_sc p) (s_parent p) (s_events p ++ es).

(** The context of a step: its span is sampled, or there is none. *)
Definition cok (x : ctx) : Prop :=
  sized (c_sc x) ∧
  ((sc_valid (c_sc x) = true ∧ sampled (sc_flags (c_sc x)) = true) ∨
   (sc_valid (c_sc x) = false ∧ nonzero (sc_trace (c_sc x)) = false ∧ c_rec x = false)).
Definition inv (s : st) : Prop := ∀ i p, st_open s !! i = Some p → ∃ k, k < st_next s ∧ i = new_sid T k.

Definition post (x : ctx) (s s' : st) (v : list event * list tree * list tree) : Prop :=
  ∃ (ks ap : list (ltree nat)) (new : list span),
    map erase ks = v.1.2 ∧ map erase ap = v.2 ∧
    st_open s' = (if c_rec x then alter (add_all v.1.1) (sc_span (c_sc x)) (st_open s) else st_open s) ∧
    st_done s' = st_done s ++ new ∧
    map row_of new ≡ₚ concat (map (krows (c_sc x)) ks) ++ concat (map (krows sc_zero) ap) ∧
    st_crash s' = st_crash s ∧
    NoDup (concat (map ids (ks ++ ap))) ∧
    Forall (λ k, st_next s ≤ k < st_next s') (concat (map ids (ks ++ ap))) ∧
    st_next s ≤ st_next s'.

Lemma alter_none (i : bytes) (m : gmap bytes span) : alter (add_all []) i m = m.
Proof.
  apply map_eq. intros j. destruct (decide (i = j)) as [->|]; [|by rewrite lookup_alter_ne].
  rewrite lookup_alter. destruct (m !! j) as [[n c q e]|]; [|done]. simpl. unfold add_all. simpl. by rewrite app_nil_r.
Qed.
Lemma alter_app (es fs : list event) (i : bytes) (m : gmap bytes span) : alter (add_all fs) i (alter (add_all es) i m) = alter (add_all (es ++ fs)) i m.
Proof.
  rewrite <- alter_compose. apply alter_ext. intros p _. unfold add_all. simpl. by rewrite (assoc_L (++)).
Qed.

Definition vnil : list event * list tree * list tree := ([], [], []).
Definition vapp (v w : list event * list tree * list tree) : list event * list tree * list tree :=
  (v.1.1 ++ w.1.1, v.1.2 ++ w.1.2, v.2 ++ w.2).

Lemma post_refl x s : post x s s vnil.
Proof.
  exists [], [], []. split_and!; try done.
  - destruct (c_rec x); [|done]. simpl. symmetry. apply alter_none.
  - by rewrite app_nil_r.
  - constructor.
  - constructor.
Qed.
Lemma post_event x e s : post x s (add_event x e s) ([e], [], []).
Proof.
  unfold add_event. exists [], [], []. destruct (c_rec x); split_and!; try done; simpl; rewrite ?app_nil_r; try done; constructor.
Qed.
Lemma post_seq x s s1 s2 v w : post x s s1 v → post x s1 s2 w → post x s s2 (vapp v w).
Proof.
  intros (ks & ap & new & E1 & E2 & Ho & Hd & Hr & Hc & Hn & Hf & Hm) (ks' & ap' & new' & E1' & E2' & Ho' & Hd' & Hr' & Hc' & Hn' & Hf' & Hm').
  exists (ks ++ ks'), (ap ++ ap'), (new ++ new'). simpl.
  assert (concat (map ids ((ks ++ ks') ++ ap ++ ap')) ≡ₚ concat (map ids (ks ++ ap)) ++ concat (map ids (ks' ++ ap'))) as EP.
  { rewrite !map_app, !concat_app. solve_Permutation. }
  split_and!.
  - by rewrite map_app, E1, E1'.
  - by rewrite map_app, E2, E2'.
  - rewrite Ho', Ho. destruct (c_rec x); [|done]. by rewrite alter_app.
  - by rewrite Hd', Hd, (assoc_L (++)).
  - rewrite !map_app, !concat_app, Hr, Hr'. solve_Permutation.
  - congruence.
  - rewrite EP. apply NoDup_app. split; [done|]. split; [|done]. intros k H1 H2.
    rewrite Forall_forall in Hf, Hf'. specialize (Hf _ H1). specialize (Hf' _ H2). lia.
  - rewrite EP, Forall_app. split; eapply Forall_impl; [exact Hf| |exact Hf'|]; simpl; lia.
  - lia.
Qed.
Lemma post_inv x s s' v : inv s → post x s s' v → inv s'.
Proof.
  intros Hi (ks & ap & new & _ & _ & Ho & _ & _ & _ & _ & _ & Hm) i p Hp. rewrite Ho in Hp.
  assert (is_Some (st_open s !! i)) as [q Hq].
  { destruct (c_rec x); [|eauto].
    destruct (decide (sc_span (c_sc x) = i)) as [<-|Hne].
    - rewrite lookup_alter in Hp. destruct (st_open s !! _); [eauto|done].
    - rewrite lookup_alter_ne in Hp by done. eauto. }
  destruct (Hi _ _ Hq) as (k & Hk & ->). exists k. split; [lia|done].
Qed.
(** Only the span's identity matters if it gets no events. *)
Lemma post_move x y s s' ks ap :
  sc_valid (c_sc x) = sc_valid (c_sc y) →
  (sc_valid (c_sc x) = true → sc_trace (c_sc x) = sc_trace (c_sc y) ∧ sc_span (c_sc x) = sc_span (c_sc y)) →
  post x s s' ([], ks, ap) → post y s s' ([], ks, ap).
Proof.
  intros Hv He (kt & at_ & new & E1 & E2 & Ho & Hd & Hr & Hc & Hn & Hf & Hm).
  exists kt, at_, new. split_and!; try done.
  - rewrite Ho. simpl.
    destruct (c_rec x), (c_rec y); by rewrite ?alter_none.
  - rewrite Hr. replace (map (krows (c_sc x)) kt) with (map (krows (c_sc y)) kt); [done|].
    apply map_ext. intros t. unfold krows, par.
    rewrite <- Hv. destruct (sc_valid (c_sc x)); [|done]. by destruct He as [-> ->].
Qed.
(** What happens in the background is apart. *)
Lemma post_background x s s' e ks ap : post background s s' (e, ks, ap) → post x s s' ([], [], ks ++ ap).
Proof.
  intros (kt & at_ & new & E1 & E2 & Ho & Hd & Hr & Hc & Hn & Hf & Hm).
  exists [], (kt ++ at_), new. simpl in *. split_and!; try done.
  - by rewrite map_app, E1, E2.
  - rewrite Ho. destruct (c_rec x); [|done]. by rewrite alter_none.
  - rewrite Hr, map_app, concat_app. done.
Qed.

(** A span around a step *)
Lemma start_ok x m s : cok x →
  let c := c_sc (start T x m s).1 in
  cok (start T x m s).1 ∧ c_rec (start T x m s).1 = true ∧ sc_valid c = true ∧ sc_span c = new_sid T (st_next s) ∧
  sc_trace c = (if sc_valid (c_sc x) then sc_trace (c_sc x) else new_tid T (st_next s)) ∧
  (start T x m s).2 = St (S (st_next s)) (<[new_sid T (st_next s) := Span m c (c_sc x) []]> (st_open s)) (st_done s) (st_crash s).
Proof using HT.
  intros [(H1 & H2 & H3) Hx]. destruct (ok_tid T HT (st_next s)) as [Lt Nt], (ok_sid T HT (st_next s)) as [Ls Ns].
  unfold start. simpl. destruct Hx as [[Hv Hs]|(Hv & Hn & Hr)].
  - assert (nonzero (sc_trace (c_sc x)) = true) as Hn by (unfold sc_valid in Hv; by destruct (nonzero _)).
    rewrite Hv, Hs, Hn. simpl. split; [|split_and!; try done; by unfold sc_valid; simpl; rewrite Hn, Ns].
    split; [done|]. left. unfold sc_valid. simpl. rewrite Hn, Ns. split; [done|]. by destruct (sc_flags (c_sc x)).
  - rewrite Hv, Hn. simpl. split; [|split_and!; try done; by unfold sc_valid; simpl; rewrite Nt, Ns].
    split; [done|]. left. unfold sc_valid. simpl. rewrite Nt, Ns. split; [done|]. by destruct (sc_flags (c_sc x)).
Qed.
Lemma open_fresh s N : no_collision T N → inv s → st_next s < N → st_open s !! new_sid T (st_next s) = None.
Proof.
  intros Hc Hi HN. destruct (st_open s !! _) as [p|] eqn:E; [|done].
  destruct (Hi _ _ E) as (k & Hk & Ek). destruct (Hc (st_next s) k) as [_ H]; [lia|lia|]. specialize (H Ek). lia.
Qed.
Lemma start_inv x m s : cok x → inv s → inv (start T x m s).2.
Proof using HT.
  intros Hx Hi. destruct (start_ok x m s Hx) as (_ & _ & _ & _ & _ & ->). intros i p. simpl.
  intros [[<- _]|[_ Hp]]%lookup_insert_Some; [exists (st_next s); split; [lia|done]|].
  destruct (Hi _ _ Hp) as (k & Hk & ->). exists k. split; [lia|done].
Qed.
Lemma post_span x m s s' e ks ap N :
  no_collision T N → inv s → cok x → st_next s' ≤ N →
  post (start T x m s).1 (start T x m s).2 s' (e, ks, ap) →
  post x s (finish (start T x m s).1 s') ([], [Node m e ks], ap).
Proof using HT.
  intros Hc Hi Hx HN (kt & at_ & new & E1 & E2 & Ho & Hd & Hr & Hcr & Hnd & Hf & Hm).
  destruct (start_ok x m s Hx) as (Hx1 & Hrec & Hv & Hsid & Htid & Es).
  destruct (start T x m s) as [x1 s1]. cbn [fst snd] in *. subst s1. cbn [st_next st_open st_done st_crash fst snd] in *.
  assert (st_open s !! new_sid T (st_next s) = None) as Hfr by (apply (open_fresh s N); [done|done|lia]).
  rewrite Hrec in Ho. set (p := Span m (c_sc x1) (c_sc x) e).
  assert (st_open s' = <[new_sid T (st_next s) := p]> (st_open s)) as Ho'.
  { rewrite Ho, Hsid, alter_insert. done. }
  unfold finish. rewrite Hsid, Ho', lookup_insert, Hrec. rewrite delete_insert by done.
  exists [LNode (st_next s) m e kt], at_, (new ++ [p]). simpl. split_and!.
  - by rewrite E1.
  - done.
  - destruct (c_rec x); [|done]. by rewrite alter_none.
  - by rewrite Hd, (assoc_L (++)).
  - rewrite map_app. simpl. rewrite Hr. unfold krows at 3. simpl. rewrite app_nil_r.
    assert (row_of p = Row m (if sc_valid (c_sc x) then sc_trace (c_sc x) else new_tid T (st_next s)) (new_sid T (st_next s)) (par (c_sc x)) e) as Ep.
    { unfold row_of, p. simpl. by rewrite Hsid, Htid. }
    rewrite Ep. rewrite map_map.
    assert (map (krows (c_sc x1)) kt =
            map (λ t, rows (if sc_valid (c_sc x) then sc_trace (c_sc x) else new_tid T (st_next s))
              (Some (if sc_valid (c_sc x) then sc_trace (c_sc x) else new_tid T (st_next s), new_sid T (st_next s))) (lmap (new_sid T) t)) kt) as Ek.
    { apply map_ext. intros t. unfold krows, par. by rewrite Hv, Hsid, Htid. }
    rewrite Ek. solve_Permutation.
  - done.
  - rewrite map_app, concat_app in Hnd, Hf. simpl. apply NoDup_cons. split; [|done].
    intros Hin. rewrite Forall_forall in Hf. specialize (Hf _ Hin). simpl in Hf. lia.
  - rewrite map_app, concat_app in Hf. simpl. constructor; [lia|].
    eapply Forall_impl; [exact Hf|]. simpl. lia.
  - lia.
Qed.

Lemma background_ok : cok background.
Proof using HT. split; [apply zero_sized|]. right. done. Qed.
Lemma post_when x s s1 (b : bool) e ks ap :
  post x s s1 (e, ks, ap) → post x s (if b then add_event x EvErr s1 else s1) (e ++ when b [EvErr], ks, ap).
Proof.
  intros Hp. destruct b; simpl; [|by rewrite app_nil_r].
  pose proof (post_seq _ _ _ _ _ _ Hp (post_event x EvErr s1)) as H. unfold vapp in H. simpl in H. by rewrite !app_nil_r in H.
Qed.

Section bound.
Context (N : nat) (HN : no_collision T N).

Lemma server_post C svc meth h (v : list event * list tree * list tree) (fails : bool) x y s :
  mono h →
  (∀ x s, cok x → inv s → st_next (h x s).1 ≤ N → post x s (h x s).1 v ∧ (h x s).2 = fails) →
  cok y → inv s →
  st_next (server_wrapper T C svc meth h x (marshal T (c_sc y)) s).1 ≤ N →
  post y s (server_wrapper T C svc meth h x (marshal T (c_sc y)) s).1
    ([], [Node (iface C svc +:+ "Server_" +:+ meth) (v.1.1 ++ when fails [EvErr]) v.1.2], v.2) ∧
  (server_wrapper T C svc meth h x (marshal T (c_sc y)) s).2 = fails.
Proof using HT HN.
  intros Hm Hh Hy Hi. unfold server_wrapper.
  rewrite decide_False by (apply (ok_enc T HT)). rewrite get_marshal by apply Hy.
  assert (∃ z, (if sc_valid (c_sc y) then
                 (match (if sc_valid (c_sc y) then Ok (c_sc y) else Err) with
                  | Ok c => Ok (Ctx (SC (sc_trace c) (sc_span c) (sc_flags c) (sc_state c) true) false)
                  | Err => Ok (Ctx (SC (sc_trace sc_zero) (sc_span sc_zero) (sc_flags sc_zero) (sc_state sc_zero) true) false)
                  | Panic => Panic end)
               else Ok (Ctx (SC (sc_trace sc_zero) (sc_span sc_zero) (sc_flags sc_zero) (sc_state sc_zero) true) false)) = Ok z ∧
               cok z ∧ sc_valid (c_sc z) = sc_valid (c_sc y) ∧
               (sc_valid (c_sc z) = true → sc_trace (c_sc z) = sc_trace (c_sc y) ∧ sc_span (c_sc z) = sc_span (c_sc y))) as (z & Ez & Hz & Hv & He).
  { destruct Hy as [Hsz [[Hv Hs]|(Hv & _ & _)]]; rewrite Hv.
    - eexists. split; [done|]. split; [|split; [exact Hv|done]]. split; [exact Hsz|]. left. split; [exact Hv|exact Hs].
    - eexists. split; [done|]. split; [|split; [done|done]]. split; [|by right]. apply zero_sized. }
  assert ((match (if sc_valid (c_sc y) then Ok (c_sc y) else Err) with
                  | Ok c => Ok (Ctx (SC (sc_trace c) (sc_span c) (sc_flags c) (sc_state c) true) false)
                  | Err => Ok (Ctx (SC (sc_trace sc_zero) (sc_span sc_zero) (sc_flags sc_zero) (sc_state sc_zero) true) false)
                  | Panic => Panic end) = Ok z) as ->.
  { by destruct (sc_valid (c_sc y)). }
  clear Ez. set (m := (iface C svc +:+ "Server_" +:+ meth)).
  destruct (start_ok z m s Hz) as (Hx1 & Hrec & _ & _ & _ & _).
  pose proof (start_inv z m s Hz Hi) as Hi1.
  pose proof (Hh (start T z m s).1 (start T z m s).2 Hx1 Hi1) as Hb.
  pose proof (post_span z m s) as Hspan.
  destruct (start T z m s) as [x1 s1]. cbn [fst snd] in *.
  destruct (h x1 s1) as [s2 err]. cbn [fst snd] in *. intros Hle.
  rewrite finish_next in Hle. destruct Hb as [Hp ->]; [destruct err; by rewrite ?add_event_next in Hle|].
  split; [|done]. apply (post_move z y); [done|done|].
  destruct v as [[e ks] ap]. apply (Hspan _ _ _ _ N); try done.
  apply post_when. done.
Qed.

Lemma client_post C gen svc meth (g : ctx → bytes → st → st * bool) kids ap (err : bool) x s :
  (∀ y s, cok y → inv s → st_next (g y (marshal T (c_sc y)) s).1 ≤ N →
     post y s (g y (marshal T (c_sc y)) s).1 ([], kids, ap) ∧ (g y (marshal T (c_sc y)) s).2 = err) →
  cok x → inv s →
  st_next (client_wrapper T C gen svc meth g x s).1 ≤ N →
  post x s (client_wrapper T C gen svc meth g x s).1
    (if gen then ([], [Node (base C svc +:+ "Client_" +:+ meth) (when err [EvErr]) kids], ap) else (when err [EvErr], kids, ap)) ∧
  (client_wrapper T C gen svc meth g x s).2 = err.
Proof using HT HN.
  intros Hg Hx Hi. unfold client_wrapper. destruct gen.
  - set (m := (base C svc +:+ "Client_" +:+ meth)).
    destruct (start_ok x m s Hx) as (Hx1 & _ & _ & _ & _ & _).
    pose proof (start_inv x m s Hx Hi) as Hi1.
    pose proof (post_span x m s) as Hspan.
    destruct (start T x m s) as [x1 s1]. cbn [fst snd] in *.
    pose proof (Hg x1 s1 Hx1 Hi1) as Hb. destruct (g x1 _ s1) as [s2 e]. cbn [fst snd] in *. intros Hle.
    rewrite finish_next in Hle. destruct Hb as [Hp ->]; [destruct e; by rewrite ?add_event_next in Hle|].
    split; [|done]. apply (Hspan _ _ _ _ N); try done. apply (post_when _ _ _ err [] kids ap Hp).
  - pose proof (Hg x s Hx Hi) as Hb. destruct (g x _ s) as [s2 e]. cbn [fst snd] in *. intros Hle.
    destruct Hb as [Hp ->]; [destruct e; by rewrite ?add_event_next in Hle|].
    split; [|done]. apply (post_when _ _ _ err [] kids ap Hp).
Qed.

Definition vsum (vs : list (list event * list tree * list tree)) : list event * list tree * list tree :=
  (concat (map (λ v, v.1.1) vs), concat (map (λ v, v.1.2) vs), concat (map snd vs)).

Lemma run_all_post C body x s :
  Forall (λ a, ∀ x s, cok x → inv s → st_next (run T C a x s).1 ≤ N → post x s (run T C a x s).1 (view C a) ∧ (run T C a x s).2 = errs C a) body →
  cok x → inv s → st_next (run_all T C body x s) ≤ N →
  post x s (run_all T C body x s) (vsum (map (view C) body)).
Proof using HT HN.
  intros HF Hx. revert s. induction HF as [|a l Ha _ IH]; intros s Hi Hle.
  - apply post_refl.
  - unfold run_all in *. simpl in *. pose proof (run_all_next C l x (run T C a x s).1) as Hmn. unfold run_all in Hmn.
    destruct (Ha x s Hx Hi) as [Hp _]; [lia|].
    specialize (IH _ (post_inv _ _ _ _ Hi Hp) Hle). apply (post_seq _ _ _ _ _ _ Hp IH).
Qed.

Lemma run_post C a x s : cok x → inv s → st_next (run T C a x s).1 ≤ N →
  post x s (run T C a x s).1 (view C a) ∧ (run T C a x s).2 = errs C a.
Proof using HT HN.
  revert x s. induction a as [l m|svc meth n body fails IH] using act_ind'; intros x s Hx Hi.
  { intros _. split; [apply post_event|done]. }
  assert (∀ x s, cok x → inv s → st_next (run_all T C body x s) ≤ N → post x s (run_all T C body x s) (vsum (map (view C) body))) as Hb.
  { intros y s1. by apply run_all_post. }
  rewrite run_call. cbv zeta. cbn [view errs]. fold (vsum (map (view C) body)).
  set (h := λ x s, (run_all T C body x s, fails)).
  assert (mono h) as Hm by (intros ??; apply run_all_next).
  assert (∀ x s, cok x → inv s → st_next (h x s).1 ≤ N → post x s (h x s).1 (vsum (map (view C) body)) ∧ (h x s).2 = fails) as Hh.
  { intros y s1 Hy Hs1 Hle. split; [by apply Hb|done]. }
  change (concat (map (λ v, v.1.1) (map (view C) body))) with ((vsum (map (view C) body)).1.1).
  change (concat (map (λ v, v.1.2) (map (view C) body))) with ((vsum (map (view C) body)).1.2).
  change (concat (map snd (map (view C) body))) with ((vsum (map (view C) body)).2).
  generalize dependent (vsum (map (view C) body)). intros v Hb Hh.
  destruct (inst C svc) as [gen|].
  - set (kids := when (negb (remote C svc && match n with RequestLost => true | _ => false end))
       [Node (iface C svc +:+ "Server_" +:+ meth) (v.1.1 ++ when fails [EvErr]) v.1.2]).
    set (ap := when (negb (remote C svc && match n with RequestLost => true | _ => false end)) v.2).
    intros Hle. pose proof (client_post C gen svc meth
      (λ x t, transport C svc n (λ x, server_wrapper T C svc meth h x t) x) kids ap
      (fails || remote C svc && match n with Delivered => false | _ => true end) x s) as Hc.
    destruct gen; apply Hc; try done; clear Hc Hle; intros y s1 Hy Hs1; unfold transport, kids, ap;
      (destruct (remote C svc); [destruct n|]); cbn [negb andb orb when];
      rewrite ?orb_false_r, ?orb_true_r; try (by apply server_post);
      try (intros _; split; [apply post_refl|done]);
      cbn [fst snd]; intros Hle;
      (split; [by apply server_post|done]).
  - unfold transport. destruct (remote C svc); [destruct n|]; cbn [negb andb orb when];
      rewrite ?orb_false_r, ?orb_true_r; cbn [fst snd]; intros Hle.
    + destruct (Hh background s background_ok Hi Hle) as [Hp ->]. split; [|done].
      destruct v as [[e ks] ap]. by apply (post_background _ _ _ e).
    + split; [apply post_refl|done].
    + destruct (Hh background s background_ok Hi Hle) as [Hp _]. split; [|done].
      destruct v as [[e ks] ap]. by apply (post_background _ _ _ e).
    + destruct (Hh x s Hx Hi Hle) as [Hp ->]. split; [|done]. by destruct v as [[e ks] ap].
Qed.
End bound.
End tracer.
