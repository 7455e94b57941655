From Verif Require Export NetCache_Spec.
From stdpp Require Export sorting.
Set Default Proof Using "Type".

Section proof.
Context (C : codec).
Notation server := (gmap string (text C)).

(** ** Contents *)
Lemma possible_none k h : possible C Memcached h k None.
Proof. destruct h; simpl; by left. Qed.
Lemma possible_nil b k : possible C b [] k None.
Proof. simpl. by right. Qed.
#[local] Opaque wrap64.

Lemma command_cases f (s s' : server) r :
  command C f s s' r = (s', r) ∨ command C f s s' r = (s, PErr) ∨ command C f s s' r = (s', PErr).
Proof. destruct f; simpl; auto. Qed.

Lemma marshal_all_spec ks vs l :
  marshal_all C ks vs = inl l →
  map fst l = ks ∧ ∀ i k t, l !! i = Some (k, t) → ∃ v, vs !! i = Some v ∧ marshal C v = Some t.
Proof.
  revert vs l. induction ks as [|k ks IH]; intros vs l H; simpl in H.
  - injection H as <-. split; [done|]. intros i ??. by rewrite lookup_nil.
  - destruct vs as [|v vs]; [done|]. destruct (marshal C v) as [t|] eqn:Hm; [|done].
    destruct (marshal_all C ks vs) as [l'|] eqn:Hl; [|done]. injection H as <-.
    destruct (IH _ _ Hl) as [H1 H2]. split; [simpl; by f_equal|].
    intros [|i] k' t' Hi; simpl in Hi; [injection Hi as <- <-; by exists v|]. by apply (H2 i k').
Qed.
Lemma marshal_all_err ks vs r : marshal_all C ks vs = inr r → r ≠ POk.
Proof.
  revert vs. induction ks as [|k ks IH]; intros vs H; simpl in H; [done|].
  destruct vs as [|v vs]; [by injection H as <-|]. destruct (marshal C v); [|by injection H as <-].
  destruct (marshal_all C ks vs) eqn:Hl; [done|]. injection H as <-. by eapply IH.
Qed.
(** The last entry for a key wins. *)
Lemma inserts_lookup (l : list (string * text C)) (s : server) k :
  (k ∉ map fst l ∧ fold_left (λ s kt, <[kt.1 := kt.2]> s) l s !! k = s !! k) ∨
  (∃ i t, l !! i = Some (k, t) ∧ fold_left (λ s kt, <[kt.1 := kt.2]> s) l s !! k = Some t ∧
          ∀ j, i < j → map fst l !! j ≠ Some k).
Proof.
  revert s. induction l as [|[k' t] l IH]; intros s; simpl; [left; split; [apply not_elem_of_nil|done]|].
  destruct (IH (<[k' := t]> s)) as [[Hn He]|(i & t' & Hi & He & Hj)].
  - destruct (decide (k' = k)) as [->|Hk].
    + right. exists 0, t. rewrite He, lookup_insert. repeat split; auto.
      intros [|j] Hj; [lia|]. simpl. intros Hl. apply Hn. by eapply elem_of_list_lookup_2.
    + left. rewrite He, lookup_insert_ne by done. split; [|done]. apply not_elem_of_cons. auto.
  - right. exists (S i), t'. repeat split; auto. intros [|j] Hlt; [lia|]. simpl. apply Hj. lia.
Qed.

Definition inv (b : backend) (st : server * list (cop * reply)) : Prop := ∀ k, possible C b st.2 k (st.1 !! k).

Lemma incr_wrap z : (-2 ^ 63 ≤ z < 2 ^ 63 - 1)%Z → wrap64 (z + 1) = (z + 1)%Z.
Proof. Transparent wrap64. unfold wrap64. Opaque wrap64. intros. rewrite Z.mod_small; lia. Qed.

Lemma redis_event_inv st e : inv Redis st → inv Redis (redis_event C st e).
Proof.
  intros Hi. destruct e as [o sch|k0]; [|done]. destruct st as [s h]. simpl. set (f := default _ _). clearbody f.
  unfold inv in *. simpl in Hi.
  destruct o as [k0 v|k0 d|ks vs|ks ds|k0|k0]; simpl.
  - destruct (marshal C v) as [t|] eqn:Hm; simpl.
    2:{ intros k. right. case_decide; [|apply Hi]. right. split; [done|apply Hi]. }
    intros k. destruct f; simpl; right; case_decide as Hk; subst; rewrite ?lookup_insert, ?lookup_insert_ne by done;
      rewrite ?Hm; auto; right; (split; [done|apply Hi]).
  - intros k. destruct f; simpl; right; (split; [apply Hi|]); intros -> g Hg; [|done|done].
    injection Hg as <-. done.
  - destruct (marshal_all C ks vs) as [l|r] eqn:Hl; simpl.
    2:{ intros k. right. right. split; [|apply Hi]. left. by eapply marshal_all_err. }
    case_bool_decide as Hnil; simpl; [intros k; right; right; split; [by left|apply Hi]|].
    destruct (marshal_all_spec _ _ _ Hl) as [Hks Hvs].
    assert (∀ r k, possible C Redis ((OpMset ks vs, r) :: h) k (fold_left (λ s kt, <[kt.1 := kt.2]> s) l s !! k)) as Hnew.
    { intros r k. simpl. right. destruct (inserts_lookup l s k) as [[Hn ->]|(i & t & Hit & -> & Hj)].
      - right. rewrite <-Hks. auto.
      - left. destruct (Hvs _ _ _ Hit) as (v & Hv & Hm). exists i, v. rewrite Hm, <-Hks.
        repeat split; eauto. rewrite list_lookup_fmap. by rewrite Hit. }
    intros k. destruct f; [apply Hnew| |apply Hnew]. simpl. right. right. auto.
  - case_bool_decide; simpl; [intros k; right; apply Hi|]. intros k. destruct f; simpl; right; apply Hi.
  - intros k. destruct f; simpl; right; case_decide as Hk; subst; rewrite ?lookup_delete, ?lookup_delete_ne by done; auto;
      right; (split; [done|apply Hi]).
  - unfold redis_incr.
    assert (∀ k, possible C Redis ((OpIncr k0, PErr) :: h) k (s !! k)) as Hsame.
    { intros k. simpl. right. case_decide; auto. }
    destruct (match s !! k0 with None => Some 0%Z | Some t => num C t end) as [z|] eqn:Hz.
    2:{ destruct f; simpl; apply Hsame. }
    case_bool_decide as Hr.
    2:{ destruct f; simpl; apply Hsame. }
    assert (∀ r k, r = PErr ∨ r = PIncr (z + 1) →
                   possible C Redis ((OpIncr k0, r) :: h) k (<[k0 := of_num C (z + 1)]> s !! k)) as Hnew.
    { intros r k Hrep. simpl. right. case_decide as Hk; [|rewrite lookup_insert_ne by done; apply Hi].
      subst k0. rewrite lookup_insert. left. exists z. split; [done|]. rewrite incr_wrap by done. split; [done|].
      destruct (s !! k) as [t|] eqn:Hs; [left; exists t; rewrite <-Hs; auto|]. right. injection Hz as <-.
      rewrite <-Hs. auto. }
    intros k. destruct f; simpl; [apply Hnew|apply Hsame|apply Hnew]; auto.
Qed.

Lemma memc_put_new f (s : server) k v s' r :
  memc_put C f s k v = (s', r) →
  (s' = s ∧ r = PErr) ∨ (∃ t, marshal C v = Some t ∧ s' = <[k := t]> s ∧ (r = POk ∨ r = PErr)).
Proof.
  unfold memc_put. intros H. destruct (marshal C v) as [t|]; [|injection H as <- <-; auto].
  destruct (legal k && fits C t); [|injection H as <- <-; auto].
  destruct f; simpl in H; injection H as <- <-; eauto 6.
Qed.
Lemma memc_puts_app (s : server) ks vs a x :
  memc_puts C s ks vs (a ++ [x]) =
  let '(s1, ok) := memc_puts C s ks vs a in
  match ks !! x.1, vs !! x.1 with
  | Some k, Some v => let '(s', r) := memc_put C x.2 s1 k v in (s', ok && match r with POk => true | _ => false end)
  | _, _ => (s1, ok)
  end.
Proof. unfold memc_puts. rewrite fold_left_app. simpl. destruct x as [i f]. by destruct (fold_left _ a _). Qed.
(** Content of a key after the goroutines of an Mset *)
Lemma memc_puts_lookup (s : server) ks vs sch s' ok k :
  memc_puts C s ks vs sch = (s', ok) →
  (s' !! k = s !! k ∧ (ok = true → ∀ i f, (i, f) ∈ sch → ks !! i = Some k → vs !! i = None)) ∨
  (∃ i v t, ks !! i = Some k ∧ vs !! i = Some v ∧ marshal C v = Some t ∧ s' !! k = Some t).
Proof.
  revert s' ok. induction sch as [|[i f] sch IH] using rev_ind; intros s' ok H.
  - injection H as <- <-. left. split; [done|]. intros _ i f Hin. by apply elem_of_nil in Hin.
  - rewrite memc_puts_app in H. destruct (memc_puts C s ks vs sch) as [s1 ok1] eqn:H1. simpl in H.
    specialize (IH _ _ eq_refl).
    assert (s' = s1 ∧ ok = ok1 ∧ (ks !! i = Some k → vs !! i = None) →
      (s' !! k = s !! k ∧ (ok = true → ∀ i0 f0, (i0, f0) ∈ sch ++ [(i, f)] → ks !! i0 = Some k → vs !! i0 = None)) ∨
      (∃ i v t, ks !! i = Some k ∧ vs !! i = Some v ∧ marshal C v = Some t ∧ s' !! k = Some t)) as Hsame.
    { intros (-> & -> & Hn). destruct IH as [[He Hok]|IH]; [left|by right]. split; [done|].
      intros Ht i0 f0 [Hin|Hin]%elem_of_app Hk; [by eapply Hok|].
      apply elem_of_list_singleton in Hin. injection Hin as -> ->. auto. }
    destruct (ks !! i) as [k'|] eqn:Hk; [|injection H as <- <-; by apply Hsame].
    destruct (vs !! i) as [v|] eqn:Hv; [|injection H as <- <-; by apply Hsame].
    destruct (memc_put C f s1 k' v) as [s2 r] eqn:Hp. injection H as <- <-. clear Hsame.
    destruct (memc_put_new _ _ _ _ _ _ Hp) as [[-> ->]|(t & Hm & -> & Hr)].
    + destruct IH as [[He Hok]|IH]; [left|by right]. split; [done|]. by rewrite andb_false_r.
    + destruct (decide (k' = k)) as [->|Hne].
      * right. exists i, v, t. rewrite lookup_insert. auto.
      * rewrite lookup_insert_ne by done. destruct IH as [[He Hok]|IH]; [left|by right]. split; [done|].
        intros [Ht _]%andb_true_iff i0 f0 [Hin|Hin]%elem_of_app Hk0; [by eapply Hok|].
        apply elem_of_list_singleton in Hin. injection Hin as -> ->. congruence.
Qed.

Lemma memc_event_inv st e : complete e → inv Memcached st → inv Memcached (memc_event C st e).
Proof.
  intros Hc Hi. destruct st as [s h]. unfold inv in *. simpl in Hi.
  destruct e as [o sch|k0]; simpl.
  2:{ intros k. destruct (decide (k0 = k)) as [->|Hne]; [rewrite lookup_delete; apply possible_none|].
      rewrite lookup_delete_ne by done. apply Hi. }
  assert (∀ f k0 v k, possible C Memcached ((OpPut k0 v, (memc_put C f s k0 v).2) :: h) k ((memc_put C f s k0 v).1 !! k)) as Hput.
  { intros f k0 v k. simpl. right. destruct (memc_put C f s k0 v) as [s' r] eqn:Hp. simpl.
    destruct (memc_put_new _ _ _ _ _ _ Hp) as [[-> ->]|(t & Hm & -> & Hr)].
    - case_decide; [right; split; [done|]|]; apply Hi.
    - case_decide; [subst; rewrite lookup_insert; left; eauto|]. rewrite lookup_insert_ne by done. apply Hi. }
  set (f := default Done (snd <$> head sch)).
  destruct o as [k0 v|k0 d|ks vs|ks ds|k0|k0].
  - simpl. specialize (Hput f k0 v). fold f. destruct (memc_put C f s k0 v) as [s' r]. simpl in *. exact Hput.
  - simpl. fold f. destruct (legal k0); [|intros k; simpl; right; split; [apply Hi|done]].
    intros k. destruct f; simpl; right; (split; [apply Hi|]); intros -> g Hg; [|done|done]. by injection Hg as <-.
  - simpl. destruct (memc_puts C s ks vs sch) as [s' ok] eqn:Hp. intros k. simpl. right.
    destruct (memc_puts_lookup _ _ _ _ _ _ k Hp) as [[-> Hok]|(i & v & t & Hk & Hv & Hm & ->)].
    + right. split; [|apply Hi]. case_bool_decide as Hlen; [by left|]. destruct ok; [|by left]. right.
      intros [i Hin]%elem_of_list_lookup. simpl in Hc.
      assert (i < length ks) as Hlt by (by eapply lookup_lt_Some).
      pose proof (Hc ltac:(lia) i Hlt) as Hs. apply elem_of_list_fmap in Hs as ([i' f'] & -> & Hs). simpl in *.
      pose proof (Hok eq_refl _ _ Hs Hin) as Hnone. apply lookup_ge_None in Hnone. lia.
    + left. exists i, v. rewrite Hm. repeat split; eauto.
  - simpl. fold f. destruct (forallb legal ks); [|intros k; simpl; right; apply Hi].
    intros k. destruct f; simpl; right; apply Hi.
  - simpl. fold f. destruct (legal k0); [|intros k; simpl; right; case_decide; [right; split; [done|]|]; apply Hi].
    intros k. destruct f; simpl; right; case_decide as Hk; subst; rewrite ?lookup_delete, ?lookup_delete_ne by done; auto;
      right; (split; [done|apply Hi]).
  - simpl. fold f. assert (∀ k, possible C Memcached ((OpIncr k0, PErr) :: h) k (s !! k)) as Hsame.
    { intros k. simpl. right. case_decide; auto. }
    destruct (legal k0); [|exact Hsame]. unfold memc_incr.
    destruct (s !! k0) as [t|] eqn:Hs; [|destruct f; exact Hsame].
    destruct (num C t) as [z|] eqn:Hz; [|destruct f; exact Hsame].
    case_bool_decide as Hr; [|destruct f; exact Hsame].
    assert (∀ r k, r = PErr ∨ r = PIncr (wrap64 ((z + 1) mod 2 ^ 64)) →
                   possible C Memcached ((OpIncr k0, r) :: h) k (<[k0 := of_num C ((z + 1) mod 2 ^ 64)]> s !! k)) as Hnew.
    { intros r k Hrep. right. case_decide as Hk; [|rewrite lookup_insert_ne by done; apply Hi].
      subst k0. rewrite lookup_insert. left. exists z. split; [done|]. split; [done|].
      left. exists t. rewrite <-Hs. auto. }
    destruct f; [intros k; apply Hnew; auto|exact Hsame|intros k; apply Hnew; auto].
Qed.

Lemma redis_run_app es e : redis_run C (es ++ [e]) = redis_event C (redis_run C es) e.
Proof. unfold redis_run. by rewrite fold_left_app. Qed.
Lemma memc_run_app es e : memc_run C (es ++ [e]) = memc_event C (memc_run C es) e.
Proof. unfold memc_run. by rewrite fold_left_app. Qed.
Lemma redis_run_inv es : inv Redis (redis_run C es).
Proof.
  induction es as [|e es IH] using rev_ind; [|rewrite redis_run_app; by apply redis_event_inv].
  intros k. simpl. rewrite lookup_empty. by right.
Qed.
Lemma memc_run_inv es : Forall complete es → inv Memcached (memc_run C es).
Proof.
  induction es as [|e es IH] using rev_ind; [|rewrite memc_run_app].
  - intros _ k. simpl. rewrite lookup_empty. by right.
  - intros Hc. apply Forall_app in Hc as [H1 H2]. inversion_clear H2. apply memc_event_inv; auto.
Qed.

(** ** Replies *)
(** A reply in the trace was given in the state that the earlier events led to. *)
Lemma redis_reply es h2 o r h1 :
  (redis_run C es).2 = h2 ++ (o, r) :: h1 →
  ∃ es1 f s', redis_step C f (redis_run C es1).1 o = (s', r) ∧ (redis_run C es1).2 = h1.
Proof.
  revert h2. induction es as [|e es IH] using rev_ind; intros h2 H; [by destruct h2|].
  rewrite redis_run_app in H. destruct e as [o' sch|k]; [|by eapply IH]. simpl in H.
  destruct (redis_step _ _ _ o') as [s' r'] eqn:Hs. simpl in H. destruct h2 as [|x h2]; simpl in H.
  - simplify_eq. eauto 6.
  - simplify_eq. by eapply IH.
Qed.
Lemma memc_reply es h2 o r h1 :
  Forall complete es → (memc_run C es).2 = h2 ++ (o, r) :: h1 →
  ∃ es1 sch s', memc_step C sch (memc_run C es1).1 o = (s', r) ∧ (memc_run C es1).2 = h1 ∧ Forall complete es1.
Proof.
  revert h2. induction es as [|e es IH] using rev_ind; intros h2 Hc H; [by destruct h2|].
  apply Forall_app in Hc as [Hc _]. specialize (λ h2, IH h2 Hc).
  rewrite memc_run_app in H. destruct e as [o' sch|k]; [|by eapply IH]. simpl in H.
  destruct (memc_step _ _ _ o') as [s' r'] eqn:Hs. simpl in H. destruct h2 as [|x h2]; simpl in H.
  - simplify_eq. eauto 8.
  - simplify_eq. by eapply IH.
Qed.
Lemma command_ok f (s s1 s' : server) r1 r : command C f s s1 r1 = (s', r) → r = r1 ∨ r = PErr.
Proof. destruct f; simpl; intros [= <- <-]; auto. Qed.
Lemma redis_mget_spec (s : server) ks ds i g :
  redis_mget C s ks ds !! i = Some g →
  ∃ k, ks !! i = Some k ∧
    match ds !! i with
    | Some d => g = seen C (s !! k) d ∨ (s !! k = None ∧ g = GHit CPanic)
    | None => g = GHit CPanic
    end.
Proof.
  revert ds i. induction ks as [|k ks IH]; intros ds i H; simpl in H; [done|].
  destruct (s !! k) as [t|] eqn:Hk.
  - destruct ds as [|d ds].
    + destruct i; [|done]. injection H as <-. exists k. simpl. auto.
    + destruct i as [|i]; [injection H as <-; exists k; simpl; rewrite Hk; auto|]. simpl in H.
      destruct (unmarshal C t d); [|done|done]. exact (IH _ _ H).
  - destruct i; [|done]. injection H as <-. exists k. split; [done|]. destruct ds; simpl; auto.
Qed.
Lemma memc_mget_spec (s : server) ks ds i g :
  memc_mget C s ks ds !! i = Some g →
  ∃ k, ks !! i = Some k ∧
    match ds !! i with
    | Some d => g = seen C (s !! k) d
    | None => (s !! k = None ∧ g = GMiss) ∨ g = GHit CPanic
    end.
Proof.
  revert ds i. induction ks as [|k ks IH]; intros ds i H; simpl in H; [done|].
  assert (∀ i, (tail ds) !! i = ds !! S i) as Ht by (intros; by destruct ds).
  destruct (s !! k) as [t|] eqn:Hk.
  - destruct ds as [|d ds].
    + destruct i; [|done]. injection H as <-. exists k. simpl. auto.
    + destruct i as [|i]; [injection H as <-; exists k; simpl; rewrite Hk; auto|]. simpl in H.
      destruct (unmarshal C t d); [|done|done]. exact (IH _ _ H).
  - destruct i as [|i]; simpl in H.
    + injection H as <-. exists k. split; [done|]. destruct ds; simpl; rewrite Hk; auto.
    + destruct (IH _ _ H) as (k' & Hk' & Hd). rewrite Ht in Hd. exists k'. auto.
Qed.
Lemma stops_redis (s : server) ks ds :
  length (redis_mget C s ks ds) = length ks ∨ last (redis_mget C s ks ds) = Some (GHit CErr) ∨
  last (redis_mget C s ks ds) = Some (GHit CPanic).
Proof.
  revert ds. induction ks as [|k ks IH]; intros ds; simpl; [auto|].
  destruct (s !! k) as [t|]; [|auto]. destruct ds as [|d ds]; [auto|].
  destruct (unmarshal C t d) eqn:Hu; [|auto|auto]. rewrite last_cons.
  destruct (IH ds) as [Hl|[->| ->]]; [|auto|auto]. simpl. auto.
Qed.
Lemma stops_memc (s : server) ks ds :
  length (memc_mget C s ks ds) = length ks ∨ last (memc_mget C s ks ds) = Some (GHit CErr) ∨
  last (memc_mget C s ks ds) = Some (GHit CPanic).
Proof.
  revert ds. induction ks as [|k ks IH]; intros ds; simpl; [auto|].
  destruct (s !! k) as [t|].
  - destruct ds as [|d ds]; [auto|]. simpl. destruct (unmarshal C t d) eqn:Hu; [|auto|auto]. rewrite last_cons.
    destruct (IH ds) as [Hl|[->| ->]]; [|auto|auto]. simpl. auto.
  - rewrite last_cons. destruct (IH (tail ds)) as [Hl|[->| ->]]; [|auto|auto]. simpl. auto.
Qed.

(** ** Agreement with the in-memory cache *)
Context (HC : codec_ok C).
Definition sim (c : cache) (s : server) : Prop := ∀ k, s !! k = c !! k ≫= marshal C ∧ (is_Some (c !! k) → is_Some (s !! k)).
Lemma sim_some c s k v : sim c s → c !! k = Some v → ∃ t, s !! k = Some t ∧ marshal C v = Some t.
Proof using Type. intros H Hv. destruct (H k) as [H1 H2]. rewrite Hv in *. simpl in *. destruct H2 as [t Ht]; [eauto|]. exists t. split; congruence. Qed.
Lemma sim_none c s k : sim c s → c !! k = None → s !! k = None.
Proof using Type. intros H Hv. destruct (H k) as [H1 _]. by rewrite Hv in H1. Qed.
Lemma sim_insert c s k v t : sim c s → marshal C v = Some t → sim (<[k := v]> c) (<[k := t]> s).
Proof using Type.
  intros H Hm k'. destruct (decide (k = k')) as [->|Hne]; [rewrite !lookup_insert; simpl; rewrite Hm; eauto|].
  rewrite !lookup_insert_ne by done. apply H.
Qed.
Lemma sim_delete c s k : sim c s → sim (delete k c) (delete k s).
Proof using Type.
  intros H k'. destruct (decide (k = k')) as [->|Hne]; [rewrite !lookup_delete; split; [done|]; by intros []|].
  rewrite !lookup_delete_ne by done. apply H.
Qed.
Lemma sim_get c s k d : sim c s → (∀ v, c !! k = Some v → same C v d) → seen C (s !! k) d = get c k d.
Proof using Type.
  intros H Hs. unfold get. destruct (c !! k) as [v|] eqn:Hv; [|by rewrite (sim_none _ _ _ H Hv)].
  destruct (sim_some _ _ _ _ H Hv) as (t & -> & Hm). destruct (Hs v eq_refl) as (t' & Hm' & Hu). simpl. congruence.
Qed.
Lemma copy_not_number v : not_a_number C v → copy_to v (DPtr TInt) = CErr.
Proof using Type.
  intros (H1 & H2 & _). destruct v as [|z| |]; try done. by destruct (H2 z).
Qed.
Lemma local_incr c k :
  incr c k = match c !! k with
             | None => (<[k := VInt 1]> c, INew 1)
             | Some v => match copy_to v (DPtr TInt) with
                         | COk (VInt z) => (<[k := VInt (wrap64 (z + 1))]> c, INew (wrap64 (z + 1)))
                         | CPanic => (c, IPanic)
                         | _ => (c, IErr)
                         end
             end.
Proof using Type.
  unfold incr, read_int, get. destruct (c !! k) as [v|]; [|done]. by destruct (copy_to v _) as [[]| |].
Qed.
Lemma redis_mget_agrees c s ks ds :
  sim c s → length ks = length ds →
  (∀ i k d, ks !! i = Some k → ds !! i = Some d → ∃ v, c !! k = Some v ∧ same C v d) →
  redis_mget C s ks ds = mget_loop c (zip ks ds).
Proof using Type.
  intros H. revert ds. induction ks as [|k ks IH]; intros [|d ds] Hl Hf; try done. simpl.
  destruct (Hf 0 k d eq_refl eq_refl) as (v & Hv & t & Hm & Hu). unfold get. rewrite Hv.
  destruct (sim_some _ _ _ _ H Hv) as (t' & -> & Hm'). assert (t' = t) as -> by congruence. rewrite Hu.
  f_equal. destruct (copy_to v d); [|done|done]. apply IH; [simpl in Hl; lia|]. intros i. apply (Hf (S i)).
Qed.
Lemma memc_mget_agrees c s ks ds :
  sim c s → length ks = length ds →
  (∀ i k d v, ks !! i = Some k → ds !! i = Some d → c !! k = Some v → same C v d) →
  memc_mget C s ks ds = mget_loop c (zip ks ds).
Proof using Type.
  intros H. revert ds. induction ks as [|k ks IH]; intros [|d ds] Hl Hf; try done. simpl.
  assert (memc_mget C s ks ds = mget_loop c (zip ks ds)) as IH'.
  { apply IH; [simpl in Hl; lia|]. intros i. apply (Hf (S i)). }
  unfold get. destruct (c !! k) as [v|] eqn:Hv.
  - destruct (Hf 0 k d v eq_refl eq_refl Hv) as (t & Hm & Hu).
    destruct (sim_some _ _ _ _ H Hv) as (t' & -> & Hm'). assert (t' = t) as -> by congruence. rewrite Hu.
    f_equal. by destruct (copy_to v d).
  - rewrite (sim_none _ _ _ H Hv). by f_equal.
Qed.
Lemma marshal_all_fine ks vs :
  length ks = length vs → Forall (λ v, is_Some (marshal C v)) vs →
  ∃ l, marshal_all C ks vs = inl l ∧ length l = length ks ∧
    ∀ c s, sim c s → sim (fold_left (λ c kv, put c kv.1 kv.2) (zip ks vs) c) (fold_left (λ s kt, <[kt.1 := kt.2]> s) l s).
Proof using Type.
  revert vs. induction ks as [|k ks IH]; intros [|v vs] Hl Hf; try done; [by exists []|].
  apply Forall_cons in Hf as [[t Hm] Hf]. destruct (IH vs) as (l & Hml & Hll & Hs); [simpl in Hl; lia|done|].
  exists ((k, t) :: l). simpl. rewrite Hm, Hml. split; [done|]. split; [simpl; lia|].
  intros c s H. apply Hs. by apply sim_insert.
Qed.

Lemma wrap_in z : (-2 ^ 63 ≤ z < 2 ^ 63)%Z → wrap64 z = z.
Proof using Type. Transparent wrap64. unfold wrap64. Opaque wrap64. intros. rewrite Z.mod_small; lia. Qed.
Lemma redis_step_agrees c s o :
  sim c s → redis_fine C c o →
  sim (cstep c o).1 (redis_step C Done s o).1 ∧ (redis_step C Done s o).2 = local_reply (cstep c o).2.
Proof using HC.
  destruct HC as [HC1 HC2]. intros H Hf. destruct o as [k v|k d|ks vs|ks ds|k|k]; simpl in *.
  - destruct Hf as [t Hm]. rewrite Hm. simpl. split; [by apply sim_insert|done].
  - split; [done|]. by rewrite <-(sim_get c s).
  - destruct Hf as (Hne & Hl & Hf). destruct (marshal_all_fine _ _ Hl Hf) as (l & -> & Hll & Hs).
    rewrite bool_decide_false by (intros ->; destruct ks; done). unfold mset. rewrite bool_decide_true by done. simpl.
    split; [by apply Hs|done].
  - destruct Hf as (Hne & Hl & Hf). rewrite bool_decide_false by done. unfold mget. rewrite bool_decide_true by done.
    simpl. split; [done|]. f_equal. by apply redis_mget_agrees.
  - split; [by apply sim_delete|done].
  - rewrite local_incr. unfold redis_incr. destruct (c !! k) as [v|] eqn:Hv.
    + destruct (sim_some _ _ _ _ H Hv) as (t & -> & Hm). destruct Hf as [(z & -> & Hz)|Hn].
      * simpl. rewrite HC1 in Hm. injection Hm as <-. rewrite HC2. rewrite bool_decide_true by done.
        rewrite wrap_in by lia. simpl. split; [|done]. by apply sim_insert.
      * rewrite copy_not_number by done. destruct Hn as (_ & _ & t' & Hm' & Hn).
        assert (t' = t) as -> by congruence. by rewrite Hn.
    + rewrite (sim_none _ _ _ H Hv). rewrite bool_decide_true by lia. simpl. split; [|done]. by apply sim_insert.
Qed.

(** Distinct keys: the goroutines of an Mset commute. *)
Lemma memc_puts_done (s : server) ks vs sch :
  length ks = length vs → NoDup ks → Forall (λ k, legal k = true) ks → Forall (storable C) vs →
  Forall (λ p, p.2 = Done) sch → NoDup (map fst sch) → Forall (λ i, i < length ks) (map fst sch) →
  (memc_puts C s ks vs sch).2 = true ∧
  ∀ k, (memc_puts C s ks vs sch).1 !! k =
    match list_find (λ k', k' = k) ks with
    | Some (i, _) => if decide (i ∈ map fst sch) then vs !! i ≫= marshal C else s !! k
    | None => s !! k
    end.
Proof using Type.
  intros Hl Hnd Hleg Hst. induction sch as [|[i f] sch IH] using rev_ind; intros Hd Hn Hb.
  - split; [done|]. intros k. destruct (list_find _ ks) as [[i k']|]; [|done]. case_decide as Hin; [by apply elem_of_nil in Hin|done].
  - rewrite map_app in Hn, Hb. apply Forall_app in Hd as [Hd [Hf _]%Forall_cons]. simpl in Hf. subst f.
    apply NoDup_app in Hn as (Hn & Hnot & _). apply Forall_app in Hb as [Hb [Hi _]%Forall_cons]. simpl in Hi.
    destruct (IH Hd Hn Hb) as [Hok Hlook]. rewrite memc_puts_app. destruct (memc_puts C s ks vs sch) as [s1 ok]. simpl in Hok, Hlook.
    subst ok. simpl. destruct (lookup_lt_is_Some_2 ks i Hi) as [k0 Hk0].
    destruct (lookup_lt_is_Some_2 vs i ltac:(lia)) as [v Hv]. rewrite Hk0, Hv.
    pose proof (proj1 (Forall_lookup _ _) Hleg _ _ Hk0) as Hle. simpl in Hle.
    destruct (proj1 (Forall_lookup _ _) Hst _ _ Hv) as (t & Hm & Hfit).
    unfold memc_put. rewrite Hm, Hle, Hfit. simpl. split; [done|]. intros k.
    destruct (decide (k0 = k)) as [->|Hne].
    + rewrite lookup_insert. assert (list_find (λ k', k' = k) ks = Some (i, k)) as ->.
      { apply list_find_Some. split; [done|]. split; [done|]. intros j y Hj Hlt ->.
        pose proof (NoDup_lookup _ _ _ _ Hnd Hk0 Hj). lia. }
      rewrite decide_True; [by rewrite Hv|]. rewrite map_app. apply elem_of_app. right. by apply elem_of_list_singleton.
    + rewrite lookup_insert_ne by done. rewrite Hlook. destruct (list_find _ ks) as [[i' k']|] eqn:Hfind; [|done].
      apply list_find_Some in Hfind as (Hi' & Heq & _). simpl in Heq. subst k'.
      assert (i' ≠ i) as Hii by congruence.
      assert (i' ∈ map fst sch ↔ i' ∈ map fst (sch ++ [(i, Done)])) as Hiff.
      { rewrite map_app. rewrite elem_of_app. simpl. rewrite elem_of_list_singleton. tauto. }
      destruct (decide (i' ∈ map fst sch)); destruct (decide (i' ∈ map fst (sch ++ _))); tauto.
Qed.
Lemma local_mset_lookup ks vs c k :
  length ks = length vs → NoDup ks →
  fold_left (λ c kv, put c kv.1 kv.2) (zip ks vs) c !! k =
  match list_find (λ k', k' = k) ks with Some (i, _) => vs !! i | None => c !! k end.
Proof using Type.
  revert vs c. induction ks as [|k0 ks IH]; intros [|v vs] c Hl Hn; try done. apply NoDup_cons in Hn as [Hin Hn].
  simpl. rewrite IH by (simpl in Hl; auto). unfold put. destruct (decide (k0 = k)) as [->|Hne].
  - destruct (list_find (λ k', k' = k) ks) as [[i k']|] eqn:Hf; [|by rewrite lookup_insert].
    apply list_find_Some in Hf as (Hi & Heq & _). simpl in Heq. subst. destruct Hin. by eapply elem_of_list_lookup_2.
  - destruct (list_find (λ k', k' = k) ks) as [[i k']|] eqn:Hf; simpl; [done|]. by rewrite lookup_insert_ne.
Qed.
Lemma memc_step_agrees c s o sch :
  sim c s → memc_fine C c o → calm (Call o sch) o →
  sim (cstep c o).1 (memc_step C sch s o).1 ∧ (memc_step C sch s o).2 = local_reply (cstep c o).2.
Proof using HC.
  destruct HC as [HC1 HC2]. intros H Hf (sch' & Heq & Hd & Hperm). injection Heq as <-.
  assert (default Done (snd <$> head sch) = Done) as Hdone.
  { destruct sch as [|[? ?] ?]; [done|]. apply Forall_cons in Hd as [Hd _]. simpl in *. done. }
  unfold memc_step. rewrite Hdone. destruct o as [k v|k d|ks vs|ks ds|k|k]; simpl in *.
  - destruct Hf as (Hl & t & Hm & Hfit). unfold memc_put. rewrite Hm, Hl, Hfit. simpl. split; [by apply sim_insert|done].
  - destruct Hf as [Hl Hf]. rewrite Hl. simpl. split; [done|]. by rewrite <-(sim_get c s).
  - destruct Hf as (Hl & Hn & Hleg & Hst).
    destruct (memc_puts_done s ks vs sch Hl Hn Hleg Hst Hd) as [Hok Hlook].
    { rewrite Hperm. apply NoDup_seq. }
    { rewrite Hperm. apply Forall_forall. intros i Hi. apply elem_of_seq in Hi. lia. }
    destruct (memc_puts C s ks vs sch) as [s' ok]. simpl in *. subst ok. rewrite bool_decide_false by lia.
    unfold mset. rewrite bool_decide_true by done. simpl. split; [|done]. intros k. rewrite Hlook.
    rewrite local_mset_lookup by done. destruct (list_find _ ks) as [[i k']|] eqn:Hfind; [|apply H].
    apply list_find_Some in Hfind as (Hi & _ & _). apply lookup_lt_Some in Hi.
    rewrite decide_True by (rewrite Hperm; apply elem_of_seq; lia).
    destruct (lookup_lt_is_Some_2 vs i ltac:(lia)) as [v Hv]. rewrite Hv. simpl. split; [done|].
    intros _. destruct (proj1 (Forall_lookup _ _) Hst _ _ Hv) as (t & -> & _). eauto.
  - destruct Hf as (Hl & Hleg & Hf). replace (forallb legal ks) with true.
    2:{ symmetry. apply forallb_forall. intros k Hk. rewrite Forall_forall in Hleg. apply Hleg. by apply elem_of_list_In. }
    unfold mget. rewrite bool_decide_true by done. simpl. split; [done|]. f_equal. by apply memc_mget_agrees.
  - destruct Hf as [Hl [v Hv]]. rewrite Hl. destruct (sim_some _ _ _ _ H Hv) as (t & -> & _). simpl.
    split; [by apply sim_delete|done].
  - destruct Hf as [Hl Hf]. rewrite Hl. rewrite local_incr. unfold memc_incr.
    destruct (c !! k) as [v|] eqn:Hv; [|done].
    destruct (sim_some _ _ _ _ H Hv) as (t & -> & Hm). destruct Hf as [(z & -> & Hz)|Hn].
    + cbn [copy_to copy_result]. rewrite bool_decide_true by done.
      rewrite HC1 in Hm. injection Hm as <-. rewrite HC2. rewrite bool_decide_true by lia.
      rewrite Z.mod_small by lia. rewrite wrap_in by lia. simpl. split; [|done]. by apply sim_insert.
    + rewrite copy_not_number by done. destruct Hn as (_ & _ & t' & Hm' & Hn).
      assert (t' = t) as -> by congruence. by rewrite Hn.
Qed.
Lemma local_run_app os o : local_run (os ++ [o]) = local_event (local_run os) o.
Proof using Type. unfold local_run. by rewrite fold_left_app. Qed.
Lemma fine_app (fine : cache → cop → Prop) os o :
  fine_history fine (os ++ [o]) → fine_history fine os ∧ fine (local_run os).1 o.
Proof using Type.
  intros H. split; [|by apply (H os o [])].
  intros before o' after Heq. apply (H before o' (after ++ [o])). by rewrite Heq, <-app_assoc.
Qed.
Lemma redis_agrees es os :
  Forall2 calm es os → fine_history (redis_fine C) os →
  sim (local_run os).1 (redis_run C es).1 ∧ (redis_run C es).2 = (local_run os).2.
Proof using HC.
  revert es. induction os as [|o os IH] using rev_ind; intros es Hc Hf.
  - apply Forall2_nil_inv_r in Hc as ->. split; [|done]. intros k. simpl. rewrite !lookup_empty. split; [done|]. by intros [].
  - apply Forall2_app_inv_r in Hc as (es1 & es2 & Hc & Hc2 & ->). apply Forall2_cons_inv_r in Hc2 as (e & ? & He & Hnil & ->).
    apply Forall2_nil_inv_r in Hnil as ->. apply fine_app in Hf as [Hf Ho]. destruct (IH _ Hc Hf) as [Hs Ht].
    rewrite redis_run_app, local_run_app. destruct He as (sch & -> & Hd & _).
    assert (default Done (snd <$> head sch) = Done) as Hdone.
    { destruct sch as [|[? ?] ?]; [done|]. apply Forall_cons in Hd as [Hd _]. simpl in *. done. }
    simpl. rewrite Hdone. destruct (redis_step_agrees _ _ _ Hs Ho) as [H1 H2]. unfold local_event.
    destruct (redis_step C Done _ o) as [s' r]. destruct (cstep _ o) as [c' r']. simpl in *. split; [done|]. by rewrite H2, Ht.
Qed.
Lemma memc_agrees es os :
  Forall2 calm es os → fine_history (memc_fine C) os →
  sim (local_run os).1 (memc_run C es).1 ∧ (memc_run C es).2 = (local_run os).2.
Proof using HC.
  revert es. induction os as [|o os IH] using rev_ind; intros es Hc Hf.
  - apply Forall2_nil_inv_r in Hc as ->. split; [|done]. intros k. simpl. rewrite !lookup_empty. split; [done|]. by intros [].
  - apply Forall2_app_inv_r in Hc as (es1 & es2 & Hc & Hc2 & ->). apply Forall2_cons_inv_r in Hc2 as (e & ? & He & Hnil & ->).
    apply Forall2_nil_inv_r in Hnil as ->. apply fine_app in Hf as [Hf Ho]. destruct (IH _ Hc Hf) as [Hs Ht].
    rewrite memc_run_app, local_run_app. destruct He as (sch & -> & He).
    assert (calm (Call o sch) o) as Hcalm by (exists sch; auto).
    destruct (memc_step_agrees _ _ _ _ Hs Ho Hcalm) as [H1 H2]. unfold local_event.
    simpl. destruct (memc_step C sch _ o) as [s' r]. destruct (cstep _ o) as [c' r']. simpl in *. split; [done|]. by rewrite H2, Ht.
Qed.

(** ** Counters *)
(** What one event does to a counter *)
Definition counter_step (k : string) (z : Z) (t : text C) (st st' : server * list (cop * reply)) (e : event) : Prop :=
  if increments e k
  then (∃ r, st'.2 = (OpIncr k, r) :: st.2 ∧
             (st'.1 !! k = Some (of_num C (z + 1)) ∧ (r = PErr ∨ r = PIncr (z + 1)) ∨ st'.1 !! k = Some t ∧ r = PErr))
  else st'.1 !! k = Some t ∧ counted st'.2 k = counted st.2 k.
Lemma counted_cons o r h k :
  counted ((o, r) :: h) k =
  counted h k ++ match o, r with OpIncr k', PIncr z => if decide (k' = k) then [z] else [] | _, _ => [] end.
Proof using Type.
  unfold counted. simpl. destruct o as [| | | | |k']; try by rewrite app_nil_r.
  destruct r; try by rewrite app_nil_r. case_decide; simpl; [done|by rewrite app_nil_r].
Qed.
Lemma counter_other k z t st st' e o r :
  st'.1 !! k = Some t → st'.2 = (o, r) :: st.2 → (∀ k', o ≠ OpIncr k') → increments e k = false → counter_step k z t st st' e.
Proof using Type.
  intros H1 H2 H3 H4. unfold counter_step. rewrite H4. split; [done|]. rewrite H2, counted_cons.
  destruct o; try by rewrite app_nil_r. by destruct (H3 k0).
Qed.
Lemma redis_counter k z t st e :
  st.1 !! k = Some t → num C t = Some z → (0 ≤ z < 2 ^ 63 - 1)%Z ∨ ((0 ≤ z)%Z ∧ increments e k = false) → ¬ writes e k →
  counter_step k z t st (redis_event C st e) e.
Proof using Type.
  destruct st as [s h]. simpl. intros Hk Ht Hz Hw. destruct e as [o sch|k0]; [|done]. simpl.
  set (f := default _ _). clearbody f. destruct (redis_step C f s o) as [s' r] eqn:Hs.
  destruct o as [k0 v|k0 d|ks vs|ks ds|k0|k0]; simpl in Hs, Hw.
  - eapply counter_other; [|done|done|done]. simpl.
    destruct (marshal C v); [destruct f|]; injection Hs as <- <-; rewrite ?lookup_insert_ne by done; done.
  - eapply counter_other; [|done|done|done]. simpl. destruct f; injection Hs as <- <-; done.
  - eapply counter_other; [|done|done|done]. simpl. destruct (marshal_all C ks vs) as [l|] eqn:Hl; [|by injection Hs as <- <-].
    case_bool_decide; [by injection Hs as <- <-|]. destruct (marshal_all_spec _ _ _ Hl) as [Hm _].
    assert (fold_left (λ s kt, <[kt.1 := kt.2]> s) l s !! k = Some t) as He.
    { destruct (inserts_lookup l s k) as [[_ ->]|(i & t' & Hi & _)]; [done|]. destruct Hw. rewrite <-Hm.
      eapply elem_of_list_fmap. exists (k, t'). split; [done|]. by eapply elem_of_list_lookup_2. }
    destruct f; injection Hs as <- <-; done.
  - eapply counter_other; [|done|done|done]. simpl. case_bool_decide; [by injection Hs as <- <-|].
    destruct f; injection Hs as <- <-; done.
  - eapply counter_other; [|done|done|done]. simpl. destruct f; injection Hs as <- <-; rewrite ?lookup_delete_ne by done; done.
  - unfold redis_incr in Hs. unfold counter_step. simpl. case_bool_decide as Hkk.
    + subst k0. destruct Hz as [Hz|[_ Hz]]; [|simpl in Hz; by rewrite bool_decide_true in Hz].
      rewrite Hk, Ht, bool_decide_true in Hs by lia.
      destruct f; injection Hs as <- <-; eexists; (split; [done|]); rewrite ?lookup_insert; auto.
    + assert (s' !! k = Some t) as He.
      { destruct (match s !! k0 with None => Some 0%Z | Some t => num C t end); [case_bool_decide|];
          destruct f; injection Hs as <- <-; rewrite ?lookup_insert_ne by done; done. }
      split; [done|]. rewrite counted_cons. destruct r; rewrite ?decide_False by done; by rewrite app_nil_r.
Qed.
Lemma memc_counter k z t st e :
  st.1 !! k = Some t → num C t = Some z → (0 ≤ z < 2 ^ 63 - 1)%Z ∨ ((0 ≤ z)%Z ∧ increments e k = false) → ¬ writes e k →
  counter_step k z t st (memc_event C st e) e.
Proof using Type.
  destruct st as [s h]. simpl. intros Hk Ht Hz Hw. destruct e as [o sch|k0].
  2:{ unfold counter_step. simpl in *. by rewrite lookup_delete_ne. }
  simpl. destruct (memc_step C sch s o) as [s' r] eqn:Hs. unfold memc_step in Hs.
  set (f := default _ _) in Hs. clearbody f.
  destruct o as [k0 v|k0 d|ks vs|ks ds|k0|k0]; simpl in Hw.
  - eapply counter_other; [|done|done|done]. simpl.
    destruct (memc_put_new _ _ _ _ _ _ Hs) as [[-> _]|(? & _ & -> & _)]; [done|by rewrite lookup_insert_ne].
  - eapply counter_other; [|done|done|done]. simpl. destruct (legal k0); [destruct f|]; injection Hs as <- <-; done.
  - eapply counter_other; [|done|done|done]. simpl. destruct (memc_puts C s ks vs sch) as [s1 ok] eqn:Hp.
    injection Hs as <- _. destruct (memc_puts_lookup _ _ _ _ _ _ k Hp) as [[-> _]|(i & v & t' & Hi & _)]; [done|].
    destruct Hw. by eapply elem_of_list_lookup_2.
  - eapply counter_other; [|done|done|done]. simpl. destruct (forallb legal ks); [destruct f|]; injection Hs as <- <-; done.
  - eapply counter_other; [|done|done|done]. simpl. destruct (legal k0); [destruct f|]; injection Hs as <- <-;
      rewrite ?lookup_delete_ne by done; done.
  - unfold counter_step. simpl. case_bool_decide as Hkk.
    + subst k0. destruct Hz as [Hz|[_ Hz]]; [|simpl in Hz; by rewrite bool_decide_true in Hz].
      destruct (legal k); [|injection Hs as <- <-; eexists; split; [done|]; auto].
      unfold memc_incr in Hs. rewrite Hk, Ht, bool_decide_true in Hs by lia.
      rewrite Z.mod_small, wrap_in in Hs by lia.
      destruct f; injection Hs as <- <-; eexists; (split; [done|]); rewrite ?lookup_insert; auto.
    + assert (s' !! k = Some t) as He.
      { unfold memc_incr in Hs. destruct (legal k0); [|by injection Hs as <- <-].
        destruct (s !! k0) as [t0|]; [destruct (num C t0); [case_bool_decide|]|];
          destruct f; injection Hs as <- <-; rewrite ?lookup_insert_ne by done; done. }
      split; [done|]. rewrite counted_cons. destruct r; rewrite ?decide_False by done; by rewrite app_nil_r.
Qed.
Lemma counter_run (step : server * list (cop * reply) → event → server * list (cop * reply)) k z t st es :
  (∀ z t st e, st.1 !! k = Some t → num C t = Some z →
     (0 ≤ z < 2 ^ 63 - 1)%Z ∨ ((0 ≤ z)%Z ∧ increments e k = false) → ¬ writes e k → counter_step k z t st (step st e) e) →
  st.1 !! k = Some t → num C t = Some z → (0 ≤ z)%Z → (z + Z.of_nat (attempts es k) < 2 ^ 63)%Z →
  Forall (λ e, ¬ writes e k) es →
  ∃ n t' acks,
    (fold_left step es st).1 !! k = Some t' ∧ num C t' = Some (z + Z.of_nat n)%Z ∧
    counted (fold_left step es st).2 k = counted st.2 k ++ acks ∧
    length acks ≤ n ≤ attempts es k ∧
    StronglySorted Z.lt acks ∧ Forall (λ a, z < a ≤ z + Z.of_nat n)%Z acks.
Proof using HC.
  intros Hstep Hk Ht Hz. induction es as [|e es IH] using rev_ind; intros Hb Hw.
  - exists 0, t, []. simpl. rewrite Z.add_0_r, app_nil_r. repeat split; auto; try lia; constructor.
  - apply Forall_app in Hw as [Hw He]. apply Forall_cons in He as [He _].
    unfold attempts in *. rewrite filter_app, app_length in *. rewrite Nat2Z.inj_add in Hb.
    destruct IH as (n & t' & acks & H1 & H2 & H3 & H4 & H5 & H6); [lia|done|].
    rewrite fold_left_app. simpl. set (st1 := fold_left step es st) in *. clearbody st1.
    assert (counter_step k (z + Z.of_nat n) t' st1 (step st1 e) e) as Hst.
    { apply Hstep; auto. destruct (increments e k) eqn:Hinc; [left|right; split; [lia|done]].
      rewrite filter_cons, decide_True in Hb by done. simpl in Hb. lia. }
    unfold counter_step in Hst. rewrite filter_cons. destruct (increments e k) eqn:Hinc.
    2:{ destruct Hst as [Ha Hc]. exists n, t', acks. rewrite Ha, Hc. simpl. repeat split; auto; lia. }
    rewrite decide_True by done. simpl. destruct Hst as (r & Htr & Hcase). rewrite Htr, counted_cons.
    destruct Hcase as [[Ha Hr]|[Ha ->]].
    2:{ exists n, t', acks. rewrite Ha, app_nil_r. repeat split; auto; lia. }
    destruct HC as [_ HC2]. destruct Hr as [->| ->].
    + exists (S n), (of_num C (z + Z.of_nat n + 1)), acks. rewrite Ha, app_nil_r, HC2. repeat split; auto; try lia; [f_equal; lia|].
      eapply Forall_impl; [done|]. intros a. simpl. lia.
    + exists (S n), (of_num C (z + Z.of_nat n + 1)), (acks ++ [z + Z.of_nat n + 1]%Z).
      rewrite Ha, HC2, decide_True by done. rewrite H3, app_assoc. repeat split; auto; [f_equal; lia|rewrite app_length; simpl; lia|lia|..].
      * clear -H5 H6. induction acks as [|a acks IH]; simpl; [repeat constructor|].
        inversion H5 as [|? ? Hs Hf]; subst. inversion H6 as [|? ? Ha Hf2]; subst. constructor; [by apply IH|].
        apply Forall_app. split; [done|]. constructor; [|constructor]. lia.
      * apply Forall_app. split; [eapply Forall_impl; [done|]; intros a; simpl; lia|]. constructor; [lia|constructor].
Qed.
End proof.
