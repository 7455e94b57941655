(** * Proofs about the sock shop's user service *)
From Verif Require Export ShopUsers_Spec.
From stdpp Require Export list.
Set Default Proof Using "Type".

(** ** Masking *)
Lemma stars_length n : String.length (stars n) = n.
Proof. induction n; simpl; congruence. Qed.
Lemma stars_get n j : (j < n)%nat → String.get j (stars n) = Some (Ascii.ascii_of_nat 42).
Proof. revert j; induction n as [|n IH]; intros [|j] Hj; simpl; try lia; [done|]. apply IH; lia. Qed.
Lemma substring_end s m n : (m + n)%nat = String.length s → String.length (String.substring m n s) = n.
Proof.
  revert m n; induction s as [|a s IH]; intros m n H; simpl in *.
  - assert (m = 0 ∧ n = 0) as [-> ->] by lia. done.
  - destruct m as [|m]; simpl.
    + destruct n as [|n]; [done|]. simpl. f_equal. apply (IH 0 n). simpl in H. lia.
    + apply IH. lia.
Qed.
Lemma app_length_string a b : String.length (a +:+ b) = (String.length a + String.length b)%nat.
Proof. induction a as [|c a IH]; [done|]. change (S (String.length (a +:+ b)) = S (String.length a + String.length b)). by rewrite IH. Qed.
Lemma mask_ok s m : hide s = Some m → masks m s.
Proof.
  unfold hide. destruct (Nat.ltb_spec (String.length s) 4) as [|Hl]; [done|]. intros [= <-].
  set (n := (String.length s - 4)%nat).
  assert (Hsub : String.length (String.substring n 4 s) = 4) by (apply substring_end; lia).
  split; [done|]. split; [rewrite app_length_string, stars_length, Hsub; lia|]. intros j Hj.
  destruct (decide (j + 4 < String.length s)%nat).
  - rewrite <-String.append_correct1 by (rewrite stars_length; lia). apply stars_get. lia.
  - assert (j = (j - n) + String.length (stars n))%nat as -> by (rewrite stars_length; lia).
    rewrite <-String.append_correct2, String.substring_correct1 by lia. rewrite stars_length. done.
Qed.
Lemma mask_some s : (4 ≤ String.length s)%nat → ∃ m, hide s = Some m.
Proof. unfold hide. destruct (Nat.ltb_spec (String.length s) 4); [lia|]. eauto. Qed.
Lemma mask_all_ok l ms : mask_all l = Some ms → Forall2 (λ s m, hide s = Some m) l ms.
Proof. apply mapM_Some_1. Qed.
Lemma mask_all_some l : Forall (λ s, 4 ≤ String.length s)%nat l → ∃ ms, mask_all l = Some ms.
Proof.
  induction 1 as [|s l Hs _ [ms IH]]; [by eexists|]. destruct (mask_some s Hs) as [m Hm]. exists (m :: ms).
  unfold mask_all in *. simpl. by rewrite Hm; simpl; rewrite IH.
Qed.
Lemma append_cancel a b c : a +:+ b = a +:+ c → b = c.
Proof. induction a as [|x a IH]; [done|]. intros H. apply IH. by injection H. Qed.

(** ** What holds in every history *)
Definition op_at (w : world) (t : nat) (o : op) : Prop := ∃ th, w_calls w !! t = Some (o, th).
Definition ext (w w' : world) : Prop := ∀ t o, op_at w t o → op_at w' t o.
Definition list_of (k : kind) (cs ads : list string) : list string := match k with Cards => cs | Addrs => ads end.
Definition owner (w : world) (k : kind) (i u : oid) : Prop :=
  (∃ n p s cs ads, op_at w i.1 (PostUser n p s cs ads) ∧ u = (i.1, 0)%nat) ∨ (∃ x, op_at w i.1 (Post k (Id u) x)).
Definition made (w : world) (k : kind) (i : oid) (x : string) : Prop :=
  (∃ n p s cs ads, op_at w i.1 (PostUser n p s cs ads) ∧ x ∈ list_of k cs ads) ∨ (∃ g, op_at w i.1 (Post k g x)).
Lemma op_at_fun w t o o' : op_at w t o → op_at w t o' → o = o'.
Proof. intros [th H] [th' H']. congruence. Qed.
Lemma owner_fun w k i u u' : owner w k i u → owner w k i u' → u = u'.
Proof.
  intros [(n&p&s&cs&ads&H&->)|[x H]] [(n'&p'&s'&cs'&ads'&H'&->)|[x' H']]; pose proof (op_at_fun _ _ _ _ H H') as E; congruence.
Qed.
Lemma owner_ext w w' k i u : ext w w' → owner w k i u → owner w' k i u.
Proof. intros E [(n&p&s&cs&ads&H&->)|[x H]]; [left|right]; naive_solver. Qed.
Lemma made_ext w w' k i x : ext w w' → made w k i x → made w' k i x.
Proof. intros E [(n&p&s&cs&ads&H&Hx)|[g H]]; [left|right]; naive_solver. Qed.
Lemma owner_made w k i u x : owner w k i u → made w k i x → given_for w k u x.
Proof.
  intros [(n&p&s&cs&ads&H&->)|[y H]] [(n'&p'&s'&cs'&ads'&H'&Hx)|[g H']]; pose proof (op_at_fun _ _ _ _ H H') as E; simplify_eq.
  - left. destruct H as [th H]. exists n', p', s', cs', ads', th. by destruct k.
  - right. destruct H as [th H]. exists th. by eapply elem_of_list_lookup_2.
Qed.
Lemma given_for_ext w w' k u x : ext w w' → given_for w k u x → given_for w' k u x.
Proof.
  intros E [(n&p&s&cs&ads&th&H&Hx)|[th H]].
  - destruct (E u.1 (PostUser n p s cs ads)) as [th' H']; [by eexists|]. left. by exists n, p, s, cs, ads, th'.
  - apply elem_of_list_lookup in H as [t H]. destruct (E t (Post k (Id u) x)) as [th' H']; [by eexists|].
    right. exists th'. by eapply elem_of_list_lookup_2.
Qed.
Lemma step_ext hash e w w' : step hash e w = Some w' → ext w w'.
Proof.
  intros Hs t o [th Ht]. destruct e as [o'|t' f|t']; simpl in Hs.
  - simplify_eq. exists th. simpl. by apply lookup_app_l_Some.
  - destruct (w_calls w !! t') as [[o' [p| |]]|] eqn:E; simplify_eq. unfold op_at; simpl.
    destruct (decide (t = t')) as [->|]; [|rewrite list_lookup_insert_ne by done; eauto].
    rewrite list_lookup_insert by (by eapply lookup_lt_Some). eexists. by simplify_eq.
  - destruct (w_calls w !! t') as [[o' [p| |]]|] eqn:E; simplify_eq. unfold op_at; simpl.
    destruct (decide (t = t')) as [->|]; [|rewrite list_lookup_insert_ne by done; eauto].
    rewrite list_lookup_insert by (by eapply lookup_lt_Some). eexists. by simplify_eq.
Qed.

Section inv.
  Context (hash : string → string).

  Definition user_ok (w : world) (u : oid) (d : user) : Prop :=
    (∃ p cs ads, op_at w u.1 (PostUser (u_name d) p (u_salt d) cs ads) ∧ u.2 = 0 ∧ u_hash d = hash (u_salt d +:+ p)) ∧
    ∀ k i, i ∈ u_refs d k → owner w k i u.
  (** Where a call can be *)
  Definition new_user (t : nat) (n p s : string) (cs ads : list string) : user :=
    User n (hash (s +:+ p)) s (λ k, match k with Cards => ids_from t 1 cs | Addrs => ids_from t (S (length cs)) ads end).
  Definition at_user t n p s cs ads : prog :=
    InsUser (t, 0) (new_user t n p s cs ads) (Ret Ok)
      (DelItems Addrs (ids_from t (S (length cs)) ads) true (DelItems Cards (ids_from t 1 cs) true (Ret Failed))).
  Inductive stage (w : world) (t : nat) : op → prog → Prop :=
    | st_cards n p s cs ads done l : cs = done ++ l →
        stage w t (PostUser n p s cs ads)
          (create_items t Cards (S (length done)) l (create_items t Addrs (S (length cs)) ads (at_user t n p s cs ads)))
    | st_addrs n p s cs ads done l : ads = done ++ l →
        stage w t (PostUser n p s cs ads) (create_items t Addrs (S (length cs) + length done) l (at_user t n p s cs ads))
    | st_clean n p s cs ads :
        stage w t (PostUser n p s cs ads) (DelItems Addrs (ids_from t (S (length cs)) ads) true (DelItems Cards (ids_from t 1 cs) true (Ret Failed)))
    | st_clean2 n p s cs ads : stage w t (PostUser n p s cs ads) (DelItems Cards (ids_from t 1 cs) true (Ret Failed))
    | st_created n p s cs ads : stage w t (PostUser n p s cs ads) (Ret Ok)
    | st_login n p : stage w t (Login n p) (login hash n p)
    | st_login_blank n p u : "" = hash p → stage w t (Login n p) (Ret (Found u [] []))
    | st_login_addrs n p i d : user_ok w i d → u_name d = n → u_hash d = hash (u_salt d +:+ p) → stage w t (Login n p) (login_addrs i d)
    | st_login_cards n p i d ads : user_ok w i d → u_name d = n → u_hash d = hash (u_salt d +:+ p) → Forall (given_for w Addrs i) ads →
        stage w t (Login n p) (login_cards i d ads)
    | st_found n p i d cs ads : user_ok w i d → u_name d = n → u_hash d = hash (u_salt d +:+ p) → Forall (given_for w Addrs i) ads →
        Forall (λ m, ∃ x, given_for w Cards i x ∧ hide x = Some m) cs → stage w t (Login n p) (Ret (Found i cs ads))
    | st_panic n p : stage w t (Login n p) (Ret Panic)
    | st_post k g x : stage w t (Post k g x) (post t k g x)
    | st_posted k u x : stage w t (Post k (Id u) x) (AddRef k u (t, 0) (Ret Ok))
    | st_post_ok k g x : g ≠ Bad → stage w t (Post k g x) (Ret Ok)
    | st_del k g : stage w t (DeleteItem k g) (delete_item k g)
    | st_del2 k i : stage w t (DeleteItem k (Id i)) (DelItems k [i] false (Ret Ok))
    | st_del_ok k i : stage w t (DeleteItem k (Id i)) (Ret Ok)
    | st_delu g : stage w t (DeleteUser g) (delete_user g)
    | st_delu2 i r r' : stage w t (DeleteUser (Id i)) (DelItems Addrs r false (DelItems Cards r' false (DelUser i (Ret Ok))))
    | st_delu3 i r : stage w t (DeleteUser (Id i)) (DelItems Cards r false (DelUser i (Ret Ok)))
    | st_delu4 i : stage w t (DeleteUser (Id i)) (DelUser i (Ret Ok))
    | st_delu_ok i : stage w t (DeleteUser (Id i)) (Ret Ok)
    | st_failed o : stage w t o (Ret Failed).
  Definition th_ok (w : world) (t : nat) (o : op) (th : thread) : Prop :=
    match th with Running p => stage w t o p ∧ settle p = Running p | Done r => stage w t o (Ret r) | Gone => True end.
  Record inv (w : world) : Prop := {
    inv_users u d : (u, d) ∈ w_users w → user_ok w u d;
    inv_items k i x : (i, x) ∈ w_items w k → made w k i x;
    inv_calls t o th : w_calls w !! t = Some (o, th) → th_ok w t o th }.

  Lemma user_ok_ext w w' u d : ext w w' → user_ok w u d → user_ok w' u d.
  Proof.
    intros E [(p&cs&ads&H&H2&H3) Hr]. split; [exists p, cs, ads; auto|]. intros k i Hi. eapply owner_ext; eauto.
  Qed.
  Lemma stage_ext w w' t o p : ext w w' → stage w t o p → stage w' t o p.
  Proof.
    intros E H. destruct H; try (by econstructor); try (econstructor; eauto using user_ok_ext;
      eapply Forall_impl; try eassumption; simpl; intros; naive_solver eauto using given_for_ext).
  Qed.
  Lemma th_ok_ext w w' t o th : ext w w' → th_ok w t o th → th_ok w' t o th.
  Proof. intros E. destruct th; simpl; intros H; [destruct H as [H ?]; split; [by eapply stage_ext|done]|by eapply stage_ext|done]. Qed.
  Lemma stage_start w t o : stage w t o (program hash t o).
  Proof.
    destruct o as [n p s cs ads|n p|k g x|k g|g]; simpl; try by constructor.
    apply (st_cards w t n p s cs ads [] cs). done.
  Qed.
  Lemma th_ok_settle w t o p : stage w t o p → th_ok w t o (settle p).
  Proof. by destruct p. Qed.

  Definition fact (t : nat) (o : op) (p : prog) : Prop :=
    match p with
    | InsItem k i x _ => i.1 = t ∧ ((∃ n p s cs ads, o = PostUser n p s cs ads ∧ x ∈ list_of k cs ads) ∨ (∃ g, o = Post k g x))
    | InsUser i d _ _ => i = (t, 0) ∧ ∃ n p s cs ads, o = PostUser n p s cs ads ∧ d = new_user t n p s cs ads
    | AddRef k u i _ => i = (t, 0) ∧ ∃ x, o = Post k (Id u) x
    | _ => True
    end.
  Lemma stage_fact w t o p : stage w t o p → fact t o p.
  Proof.
    intros H. destruct H as [n p s cs ads done l Hl|n p s cs ads done l Hl| | | | | |n p i d|n p i d ads| | |k g x|k u x| |k g| | |g| | | | |]; simpl; try exact I.
    - destruct l as [|x l]; simpl.
      + destruct ads as [|x ads]; simpl; [split; [done|]; eauto 10|]. split; [done|]. left. do 5 eexists. split; [done|]. simpl. set_solver.
      + split; [done|]. left. do 5 eexists. split; [done|]. simpl. set_solver.
    - destruct l as [|x l]; simpl; [split; [done|]; eauto 10|]. split; [done|]. left. do 5 eexists. split; [done|]. simpl. set_solver.
    - unfold login_addrs, login_cards, get_items. destruct (u_refs d Addrs); [|done]. destruct (u_refs d Cards); done.
    - unfold login_cards, get_items. destruct (u_refs d Cards); done.
    - destruct g; simpl; eauto.
    - eauto.
    - by destruct g.
    - by destruct g.
  Qed.
  Lemma stage_login_failed w t n p l : stage w t (Login n p) (login_failed l).
  Proof. unfold login_failed. destruct (mask_all _); constructor. Qed.
  Lemma find_given w k i d : inv w → user_ok w i d → Forall (given_for w k i) (find_items (w_items w k) (u_refs d k)).
  Proof.
    intros Hi [_ Hr]. apply Forall_forall. intros x Hx. unfold find_items in Hx. apply elem_of_list_fmap in Hx as [[j y] [-> Hx]].
    apply elem_of_list_filter in Hx as [Hj Hx]. simpl in *. eapply owner_made; [by apply Hr|]. by eapply inv_items.
  Qed.
  Lemma stage_next w t o p f : inv w → stage w t o p → stage w t o (next p f (w_users w, w_items w)).
  Proof.
    intros Hi H. destruct H as [n p s cs ads done l Hl|n p s cs ads done l Hl| | | |n p|n p u|n p i d Hu Hn Hh|n p i d ads Hu Hn Hh Ha| | |k g x|k u x| |k g| | |g|i r r'|i r|i| |]; simpl.
    - destruct l as [|x l]; simpl.
      + destruct ads as [|x ads]; simpl; [destruct f; constructor|]. destruct f; [|constructor].
        pose proof (st_addrs w t n p s cs (x :: ads) [x] ads eq_refl) as E. simpl in E. replace (length cs + 1)%nat with (S (length cs)) in E by lia. exact E.
      + destruct f; [|constructor]. pose proof (st_cards w t n p s cs ads (done ++ [x]) l) as E.
        rewrite app_length in E. simpl in E. replace (length done + 1)%nat with (S (length done)) in E by lia. apply E. by rewrite <-app_assoc.
    - destruct l as [|x l]; simpl; [destruct f; constructor|]. destruct f; [|constructor].
      pose proof (st_addrs w t n p s cs ads (done ++ [x]) l) as E. rewrite app_length in E. simpl in E.
      replace (length cs + (length done + 1))%nat with (S (length cs + length done)) in E by lia. apply E. by rewrite <-app_assoc.
    - rewrite orb_true_r. constructor.
    - rewrite orb_true_r. constructor.
    - constructor.
    - destruct f; [|constructor]. destruct (find_name (w_users w) n) as [[i d]|] eqn:E.
      + unfold find_name in E. apply head_Some_elem_of, elem_of_list_filter in E as [E1 E2]. simpl in E1.
        destruct (bool_decide_reflect (u_hash d = hash (u_salt d +:+ p))); [|constructor].
        apply st_login_addrs; [by apply inv_users|done|done].
      + destruct (bool_decide_reflect ("" = hash ("" +:+ p))); [|constructor]. by apply st_login_blank.
    - by constructor.
    - unfold login_addrs, get_items. destruct (u_refs d Addrs) as [|a l] eqn:El.
      + unfold login_cards, get_items. destruct (u_refs d Cards) as [|a l] eqn:Ec; simpl; [by eapply st_found|].
        destruct f; [|apply stage_login_failed]. rewrite <-Ec. destruct (mask_all _) as [cs|] eqn:Em; [|constructor].
        eapply st_found; try done. apply mask_all_ok in Em. pose proof (find_given w Cards i d Hi Hu) as Hg.
        apply Forall_forall. intros m Hm. apply elem_of_list_lookup in Hm as [j Hm].
        destruct (Forall2_lookup_r _ _ _ _ _ Em Hm) as (x & Hx & Hxm). exists x. split; [|done]. by eapply Forall_lookup_1 in Hg.
      + simpl. destruct f; [|apply stage_login_failed]. rewrite <-El. apply st_login_cards; try done. by apply find_given.
    - unfold login_cards, get_items. destruct (u_refs d Cards) as [|a l] eqn:Ec; simpl; [by eapply st_found|].
      destruct f; [|apply stage_login_failed]. rewrite <-Ec. destruct (mask_all _) as [cs|] eqn:Em; [|constructor].
      eapply st_found; try done. apply mask_all_ok in Em. pose proof (find_given w Cards i d Hi Hu) as Hg.
      apply Forall_forall. intros m Hm. apply elem_of_list_lookup in Hm as [j Hm].
      destruct (Forall2_lookup_r _ _ _ _ _ Em Hm) as (x & Hx & Hxm). exists x. split; [|done]. by eapply Forall_lookup_1 in Hg.
    - by eapply st_found.
    - constructor.
    - destruct g as [| |u]; simpl; [destruct f; by constructor|constructor|destruct f; constructor].
    - destruct f; by constructor.
    - by constructor.
    - destruct g as [| |i]; simpl; try constructor. destruct f; constructor.
    - destruct f; constructor.
    - constructor.
    - destruct g as [| |i]; simpl; try constructor. destruct f; [|constructor]. apply st_delu2.
    - destruct f; constructor.
    - destruct f; constructor.
    - destruct f; constructor.
    - constructor.
    - constructor.
  Qed.
  Lemma ids_from_in t n l i : i ∈ ids_from t n l → i.1 = t ∧ (n ≤ i.2)%nat.
  Proof. unfold ids_from. intros [j [-> _]]%elem_of_list_fmap. simpl. lia. Qed.
  Lemma write_users w t o p u d : inv w → w_calls w !! t = Some (o, Running p) → (u, d) ∈ (write p (w_users w, w_items w)).1 → user_ok w u d.
  Proof.
    intros Hi Ht Hin. pose proof (inv_calls _ Hi _ _ _ Ht) as [Hs _]. apply stage_fact in Hs.
    destruct p as [r|k i x p|i d' p q|k is b p|i p|k v i p|k i p|nm g|i g|k is g q]; simpl in *; try by apply inv_users.
    - apply elem_of_app in Hin as [Hin|Hin]; [by apply inv_users|]. apply elem_of_list_singleton in Hin. simplify_eq.
      destruct Hs as [-> (n&pw&s&cs&ads&->&->)]. split; simpl.
      + exists pw, cs, ads. split; [by eexists|]. done.
      + intros k i Hk. left. exists n, pw, s, cs, ads.
        assert (i.1 = t) as -> by (destruct k; apply ids_from_in in Hk as [? _]; done). split; [by eexists|done].
    - apply elem_of_list_filter in Hin as [_ Hin]. by apply inv_users.
    - apply elem_of_list_fmap in Hin as [[v' d'] [E Hin]]. simpl in E. apply inv_users in Hin; [|done]. destruct (decide (v' = v)) as [->|]; simplify_eq; [|done].
      destruct Hs as [-> [x ->]]. destruct Hin as [H1 H2]. split; [done|]. intros k' i. simpl. destruct (decide (k' = k)) as [->|]; [|apply H2].
      unfold add_to_set. destruct (decide _); [apply H2|]. intros [Hx|Hx]%elem_of_app; [by apply H2|]. apply elem_of_list_singleton in Hx as ->.
      right. exists x. by eexists.
    - apply elem_of_list_fmap in Hin as [[v' d'] [E Hin]]. simplify_eq/=. apply inv_users in Hin; [|done]. destruct Hin as [H1 H2]. split; [done|].
      intros k' j. simpl. destruct (decide (k' = k)); [|apply H2]. intros [_ Hx]%elem_of_list_filter. by apply H2.
  Qed.
  Lemma write_items w t o p k i x : inv w → w_calls w !! t = Some (o, Running p) → (i, x) ∈ (write p (w_users w, w_items w)).2 k → made w k i x.
  Proof.
    intros Hi Ht Hin. pose proof (inv_calls _ Hi _ _ _ Ht) as [Hs _]. apply stage_fact in Hs.
    destruct p as [r|k' i' x' p|i' d' p q|k' is b p|i' p|k' v i' p|k' i' p|nm g|i' g|k' is g q]; simpl in *; try (by apply inv_items).
    - unfold on_kind in Hin. destruct (decide (k = k')) as [->|]; [|by apply inv_items].
      apply elem_of_app in Hin as [Hin|Hin]; [by apply inv_items|]. apply elem_of_list_singleton in Hin. simplify_eq.
      destruct Hs as [<- [(n&pw&s&cs&ads&->&Hx)|[g ->]]]; [left|right]; [exists n, pw, s, cs, ads; split; [by eexists|done]|exists g; by eexists].
    - unfold on_kind, without in Hin. destruct (decide (k = k')) as [->|]; [apply elem_of_list_filter in Hin as [_ Hin]|]; by apply inv_items.
  Qed.
  Lemma inv_started : inv started.
  Proof.
    split; simpl; [intros u d H|intros k i x H|intros t o th H]; [by apply elem_of_nil in H..|by rewrite lookup_nil in H].
  Qed.
  Lemma inv_step e w w' : step hash e w = Some w' → inv w → inv w'.
  Proof.
    intros Hs Hi. pose proof (step_ext _ _ _ _ Hs) as E. destruct e as [o|t f|t]; simpl in Hs.
    - simplify_eq. split; simpl.
      + intros u d Hu. eapply user_ok_ext; [done|]. by apply inv_users.
      + intros k i x Hx. eapply made_ext; [done|]. by apply inv_items.
      + intros t o' th Ht. apply lookup_app_Some in Ht as [Ht|[Hl Ht]].
        * pose proof (inv_calls _ Hi _ _ _ Ht) as H. by eapply th_ok_ext.
        * apply list_lookup_singleton_Some in Ht as [Ht ?]. simplify_eq. replace t with (length (w_calls w)) by lia. apply th_ok_settle, stage_start.
    - destruct (w_calls w !! t) as [[o [p| |]]|] eqn:Ht; simplify_eq. split; simpl.
      + intros u d Hu. eapply user_ok_ext; [done|]. destruct (done_by f); simpl in Hu; [by eapply write_users|by apply inv_users].
      + intros k i x Hx. eapply made_ext; [done|]. destruct (done_by f); simpl in Hx; [by eapply write_items|by apply inv_items].
      + intros t' o' th Ht'. apply list_lookup_insert_Some in Ht' as [(->&?&_)|[_ Ht']]; simplify_eq.
        * apply th_ok_settle. eapply stage_ext; [done|]. apply stage_next; [done|]. apply (inv_calls _ Hi _ _ _ Ht).
        * pose proof (inv_calls _ Hi _ _ _ Ht') as H. by eapply th_ok_ext.
    - destruct (w_calls w !! t) as [[o [p| |]]|] eqn:Ht; simplify_eq. split; simpl.
      + intros u d Hu. eapply user_ok_ext; [done|]. by apply inv_users.
      + intros k i x Hx. eapply made_ext; [done|]. by apply inv_items.
      + intros t' o' th Ht'. apply list_lookup_insert_Some in Ht' as [(->&?&_)|[_ Ht']]; simplify_eq; [done|].
        pose proof (inv_calls _ Hi _ _ _ Ht') as H. by eapply th_ok_ext.
  Qed.
  Lemma inv_run P w es w' : run hash P w es w' → inv w → inv w'.
  Proof. induction 1; eauto using inv_step. Qed.
  Lemma inv_history es w : history hash es w → inv w.
  Proof. intros H. eapply inv_run; [exact H|apply inv_started]. Qed.

  (** ** Logging in *)
  Lemma login_found w t n p u cs ads : good_hash hash → inv w → w_calls w !! t = Some (Login n p, Done (Found u cs ads)) →
    (∃ s cards addrs th, w_calls w !! u.1 = Some (PostUser n p s cards addrs, th)) ∧ u.2 = 0 ∧
    Forall (λ m, ∃ x, given_for w Cards u x ∧ masks m x) cs ∧ Forall (given_for w Addrs u) ads.
  Proof.
    intros [Hne Hinj] Hi Ht. pose proof (inv_calls _ Hi _ _ _ Ht) as Hs. simpl in Hs.
    assert (∃ d, user_ok w u d ∧ u_name d = n ∧ u_hash d = hash (u_salt d +:+ p) ∧ Forall (given_for w Addrs u) ads ∧
      Forall (λ m, ∃ x, given_for w Cards u x ∧ hide x = Some m) cs) as (d & [(p'&cs'&ads'&[th Hu]&H0&Hh) _] & Hn & Hp & Ha & Hc).
    { inversion Hs as [? ? ? ? ? ? l|? ? ? ? ? ? l| | | |? ?|? ? ? Hb|? ? i d Hu Hn Hp|? ? i d ads' Hu Hn Hp Ha|? ? i d| | | | | | | | | | | | |]; subst.
      - by destruct (Hne p).
      - match goal with H : _ = Ret _ |- _ => revert H end. unfold login_addrs, login_cards, get_items.
        destruct (u_refs d Addrs); [|done]. destruct (u_refs d Cards); [|done]. simpl. intros [= -> <- <-]. exists d. auto.
      - match goal with H : _ = Ret _ |- _ => revert H end. unfold login_cards, get_items.
        destruct (u_refs d Cards); [|done]. simpl. intros [= -> <- <-]. exists d. auto.
      - exists d. auto. }
    rewrite Hh in Hp. apply Hinj, append_cancel in Hp as ->. subst n. split; [by eauto 10|]. split; [done|]. split; [|done].
    eapply Forall_impl; [exact Hc|]. intros m (x & Hx & Hm). eauto using mask_ok.
  Qed.

  (** ** Deleting *)
  Lemma over_step e w w' t : step hash e w = Some w' → over w t → over w' t.
  Proof.
    intros Hs (o & th & Ht & Hr). destruct e as [o'|t' f|t']; simpl in Hs.
    - simplify_eq. exists o, th. split; [|done]. simpl. by apply lookup_app_l_Some.
    - destruct (w_calls w !! t') as [[o' [p| |]]|] eqn:E; simplify_eq. exists o, th. split; [|done]. simpl.
      rewrite list_lookup_insert_ne; [done|]. intros ->. rewrite Ht in E. simplify_eq. by destruct (Hr p).
    - destruct (w_calls w !! t') as [[o' [p| |]]|] eqn:E; simplify_eq. exists o, th. split; [|done]. simpl.
      rewrite list_lookup_insert_ne; [done|]. intros ->. rewrite Ht in E. simplify_eq. by destruct (Hr p).
  Qed.
  (** Only the call that made a thing can store or list it, and only the one that made a user can store it *)
  Lemma write_no_item w t o p k i x : inv w → w_calls w !! t = Some (o, Running p) → t ≠ i.1 →
    (i, x) ∈ (write p (w_users w, w_items w)).2 k → (i, x) ∈ w_items w k.
  Proof.
    intros Hi Ht Hne. pose proof (inv_calls _ Hi _ _ _ Ht) as [Hs _]. apply stage_fact in Hs.
    destruct p as [r|k' i' x' p|i' d' p q|k' is b p|i' p|k' v i' p|k' i' p|nm g|i' g|k' is g q]; simpl in *; try done;
      unfold on_kind; destruct (decide (k = k')) as [->|]; try done.
    - intros [?|?]%elem_of_app; [done|]. set_unfold. destruct Hs as [Hs _]. naive_solver.
    - intros [_ ?]%elem_of_list_filter. done.
  Qed.
  Lemma write_no_ref w t o p k u d i : inv w → w_calls w !! t = Some (o, Running p) → t ≠ i.1 →
    (u, d) ∈ (write p (w_users w, w_items w)).1 → i ∈ u_refs d k → ∃ d', (u, d') ∈ w_users w ∧ i ∈ u_refs d' k.
  Proof.
    intros Hi Ht Hne Hin Hr. pose proof (inv_calls _ Hi _ _ _ Ht) as [Hs _]. apply stage_fact in Hs.
    destruct p as [r|k' i' x' p|i' d' p q|k' is b p|i' p|k' v i' p|k' i' p|nm g|i' g|k' is g q]; simpl in *; eauto.
    - apply elem_of_app in Hin as [Hin|Hin]; [eauto|]. apply elem_of_list_singleton in Hin. simplify_eq.
      destruct Hs as [-> (n&pw&s&cs&ads&->&->)]. simpl in Hr. destruct k; apply ids_from_in in Hr as [? _]; congruence.
    - apply elem_of_list_filter in Hin as [_ Hin]. eauto.
    - apply elem_of_list_fmap in Hin as [[v' d'] [E Hin]]. simpl in E. destruct (decide (v' = v)) as [->|]; simplify_eq; [|eauto].
      exists d'. split; [done|]. simpl in Hr. destruct (decide (k = k')) as [->|]; [|done]. unfold add_to_set in Hr.
      destruct (decide _); [done|]. apply elem_of_app in Hr as [Hr|Hr]; [done|]. apply elem_of_list_singleton in Hr. destruct Hs as [-> _]. by subst i.
    - apply elem_of_list_fmap in Hin as [[v' d'] [E Hin]]. simplify_eq/=. exists d'. split; [done|].
      destruct (decide (k = k')); [|done]. by apply elem_of_list_filter in Hr as [_ Hr].
  Qed.
  Lemma write_no_user w t o p u d : inv w → w_calls w !! t = Some (o, Running p) → t ≠ u.1 →
    (u, d) ∈ (write p (w_users w, w_items w)).1 → ∃ d', (u, d') ∈ w_users w.
  Proof.
    intros Hi Ht Hne Hin. pose proof (inv_calls _ Hi _ _ _ Ht) as [Hs _]. apply stage_fact in Hs.
    destruct p as [r|k' i' x' p|i' d' p q|k' is b p|i' p|k' v i' p|k' i' p|nm g|i' g|k' is g q]; simpl in *; eauto.
    - apply elem_of_app in Hin as [Hin|Hin]; [eauto|]. apply elem_of_list_singleton in Hin. simplify_eq. by destruct Hs as [-> _].
    - apply elem_of_list_filter in Hin as [_ Hin]. eauto.
    - apply elem_of_list_fmap in Hin as [[v' d'] [E Hin]]. simpl in E. destruct (decide (v' = v)); simplify_eq; eauto.
    - apply elem_of_list_fmap in Hin as [[v' d'] [E Hin]]. simplify_eq/=. eauto.
  Qed.
  Lemma over_ne w t i o p : over w i → w_calls w !! t = Some (o, Running p) → t ≠ i.
  Proof. intros (o'&th&Ht&Hr) H ->. rewrite Ht in H. simplify_eq. by destruct (Hr p). Qed.
  Lemma gone_step e w w' k i : inv w → step hash e w = Some w' → over w i.1 →
    ((∀ u, ¬ lists w k u i) → ∀ u, ¬ lists w' k u i) ∧ (¬ stored w k i → ¬ stored w' k i).
  Proof.
    intros Hi Hs Ho. destruct e as [o'|t f|t]; simpl in Hs.
    - by simplify_eq.
    - destruct (w_calls w !! t) as [[o [p| |]]|] eqn:E; simplify_eq. pose proof (over_ne _ _ _ _ _ Ho E) as Hne. destruct (done_by f); [|done]. split.
      + intros H u (d & Hd & Hr). simpl in Hd. destruct (write_no_ref _ _ _ _ _ _ _ _ Hi E Hne Hd Hr) as (d' & ? & ?). apply (H u). by exists d'.
      + intros H [x Hx]. simpl in Hx. apply H. exists x. by eapply write_no_item.
    - destruct (w_calls w !! t) as [[o [p| |]]|] eqn:E; by simplify_eq.
  Qed.
  Lemma gone_user_step e w w' u : inv w → step hash e w = Some w' → over w u.1 → ¬ has_user w u → ¬ has_user w' u.
  Proof.
    intros Hi Hs Ho H. destruct e as [o'|t f|t]; simpl in Hs.
    - by simplify_eq.
    - destruct (w_calls w !! t) as [[o [p| |]]|] eqn:E; simplify_eq. pose proof (over_ne _ _ _ _ _ Ho E) as Hne. destruct (done_by f); [|done].
      intros [d Hd]. simpl in Hd. destruct (write_no_user _ _ _ _ _ _ Hi E Hne Hd) as [d' ?]. apply H. by exists d'.
    - destruct (w_calls w !! t) as [[o [p| |]]|] eqn:E; by simplify_eq.
  Qed.
  Lemma deleted_item P w1 es w2 k i t : run hash P w1 es w2 → inv w1 → over w1 i.1 → (length (w_calls w1) ≤ t)%nat → ∀ th, w_calls w2 !! t = Some (DeleteItem k (Id i), th) →
    over w2 i.1 ∧ (th = Running (DelItems k [i] false (Ret Ok)) ∨ th = Done Ok → ∀ u, ¬ lists w2 k u i) ∧ (th = Done Ok → ¬ stored w2 k i).
  Proof.
    intros Hr Hi Ho Hl. assert (inv w2 ∧ over w2 i.1 ∧ ∀ th, w_calls w2 !! t = Some (DeleteItem k (Id i), th) →
      (th = Running (DelItems k [i] false (Ret Ok)) ∨ th = Done Ok → ∀ u, ¬ lists w2 k u i) ∧ (th = Done Ok → ¬ stored w2 k i)) as (_&H1&H2); [|naive_solver].
    induction Hr as [w|w es w2 e w3 Hr IH HP Hs].
    - split; [done|]. split; [done|]. intros th Ht. apply lookup_lt_Some in Ht. lia.
    - destruct IH as (Hi2 & Ho2 & IH); [done..|]. split; [by eapply inv_step|]. split; [by eapply over_step|]. intros th Ht.
      destruct (gone_step e w2 w3 k i Hi2 Hs Ho2) as [G1 G2].
      destruct e as [o'|t' f|t']; simpl in Hs.
      + simplify_eq. simpl in Ht. apply lookup_app_Some in Ht as [Ht|[Hl' Ht]].
        * destruct (IH _ Ht) as [A B]. split; [intros X; by apply G1, A|intros X; by apply G2, B].
        * apply list_lookup_singleton_Some in Ht as [_ Ht]. simplify_eq. simpl. split; [by intros [?|?]|done].
      + destruct (w_calls w2 !! t') as [[o [p| |]]|] eqn:E; simplify_eq. simpl in Ht. apply list_lookup_insert_Some in Ht as [(->&?&_)|[_ Ht]].
        * simplify_eq. destruct (IH _ E) as [A B]. pose proof (inv_calls _ Hi2 _ _ _ E) as [Hst Hrun].
          inversion Hst; subst; simpl in *; try done.
          -- destruct f; simpl; split; try (by intros [?|?]); try done. intros _ u (d & Hd & Hx). simpl in Hd.
             apply elem_of_list_fmap in Hd as [[v d'] [Ed Hd]]. simplify_eq/=. destruct (decide (k = k)); [|done].
             by apply elem_of_list_filter in Hx as [? _].
          -- destruct f; simpl; split; try (by intros [?|?]); try done.
             ++ intros _. apply G1, A. auto.
             ++ intros _ [x Hx]. simpl in Hx. unfold on_kind in Hx. destruct (decide (k = k)); [|done].
                apply elem_of_list_filter in Hx as [Hx _]. apply Hx. simpl. set_solver.
        * destruct (IH _ Ht) as [A B]. split; [intros X; by apply G1, A|intros X; by apply G2, B].
      + destruct (w_calls w2 !! t') as [[o [p| |]]|] eqn:E; simplify_eq. simpl in Ht. apply list_lookup_insert_Some in Ht as [(->&?&_)|[_ Ht]].
        * simplify_eq. split; [by intros [?|?]|done].
        * destruct (IH _ Ht) as [A B]. split; [intros X; by apply G1, A|intros X; by apply G2, B].
  Qed.
  Lemma deleted_user P w1 es w2 u t : run hash P w1 es w2 → inv w1 → over w1 u.1 → (length (w_calls w1) ≤ t)%nat →
    w_calls w2 !! t = Some (DeleteUser (Id u), Done Ok) → ¬ has_user w2 u.
  Proof.
    intros Hr Hi Ho Hl. assert (inv w2 ∧ over w2 u.1 ∧ (w_calls w2 !! t = Some (DeleteUser (Id u), Done Ok) → ¬ has_user w2 u)) as (_&_&H2); [|done].
    induction Hr as [w|w es w2 e w3 Hr IH HP Hs].
    - split; [done|]. split; [done|]. intros Ht. apply lookup_lt_Some in Ht. lia.
    - destruct IH as (Hi2 & Ho2 & IH); [done..|]. split; [by eapply inv_step|]. split; [by eapply over_step|]. intros Ht.
      pose proof (gone_user_step e w2 w3 u Hi2 Hs Ho2) as G.
      destruct e as [o'|t' f|t']; simpl in Hs.
      + simplify_eq. simpl in Ht. apply lookup_app_Some in Ht as [Ht|[Hl' Ht]]; [by apply G, IH|].
        apply list_lookup_singleton_Some in Ht as [_ Ht]. by simplify_eq.
      + destruct (w_calls w2 !! t') as [[o [p| |]]|] eqn:E; simplify_eq. simpl in Ht. apply list_lookup_insert_Some in Ht as [(->&Ht&_)|[_ Ht]]; [|by apply G, IH].
        pose proof (inv_calls _ Hi2 _ _ _ E) as [Hst Hrun]. injection Ht as -> Ht.
        inversion Hst; subst; simpl in *; try done; destruct f; simpl in *; try done.
        intros [d Hd]. simpl in Hd. by apply elem_of_list_filter in Hd as [? _].
      + destruct (w_calls w2 !! t') as [[o [p| |]]|] eqn:E; simplify_eq. simpl in Ht. apply list_lookup_insert_Some in Ht as [(->&Ht&_)|[_ Ht]]; [done|by apply G, IH].
  Qed.

  (** ** When nothing is deleted *)
  Fixpoint todo (p : prog) : list (kind * oid * string) := match p with InsItem k i x p => (k, i, x) :: todo p | _ => [] end.
  Fixpoint goes (p : prog) : bool := match p with InsItem _ _ _ p => goes p | InsUser _ _ _ _ => true | _ => false end.
  Definition live (th : thread) : bool := match th with Running p => goes p | Done Ok => true | _ => false end.
  Definition left (th : thread) : list (kind * oid * string) := match th with Running p => todo p | _ => [] end.
  Definition base (k : kind) (cs : list string) : nat := match k with Cards => 1 | Addrs => S (length cs) end.
  Definition holds_user (w : world) (t : nat) (n p s : string) (cs ads : list string) : Prop :=
    ∃ d, ((t, 0), d) ∈ w_users w ∧ u_name d = n ∧ u_salt d = s ∧ u_hash d = hash (s +:+ p) ∧
      ∀ k j, (j < length (list_of k cs ads))%nat → (t, (base k cs + j)%nat) ∈ u_refs d k.
  Definition no_delete (o : op) : Prop := match o with DeleteItem _ _ | DeleteUser _ => False | _ => True end.
  Record kinv (w : world) : Prop := {
    k_ops t o : op_at w t o → no_delete o;
    k_users u d : (u, d) ∈ w_users w → ∃ o, w_calls w !! u.1 = Some (o, Done Ok);
    k_refs u d k i : (u, d) ∈ w_users w → i ∈ u_refs d k → stored w k i;
    k_made t n p s cs ads th k j x : w_calls w !! t = Some (PostUser n p s cs ads, th) → live th = true → list_of k cs ads !! j = Some x →
      ((t, (base k cs + j)%nat), x) ∈ w_items w k ∨ (k, (t, (base k cs + j)%nat), x) ∈ left th;
    k_created t n p s cs ads : w_calls w !! t = Some (PostUser n p s cs ads, Done Ok) → holds_user w t n p s cs ads;
    k_posted t k g x th : w_calls w !! t = Some (Post k g x, th) → (∃ u p, th = Running (AddRef k u (t, 0) p)) ∨ th = Done Ok → ((t, 0), x) ∈ w_items w k }.

  Lemma todo_create t k n l p : todo (create_items t k n l p) = imap (λ j x, (k, (t, (n + j)%nat), x)) l ++ todo p.
  Proof.
    revert n; induction l as [|x l IH]; intros n; simpl; [done|]. rewrite Nat.add_0_r, IH. f_equal. f_equal. apply imap_ext. intros j y _. simpl. by rewrite Nat.add_succ_r.
  Qed.
  Lemma goes_create t k n l p : goes (create_items t k n l p) = goes p.
  Proof. revert n; induction l; intros n; simpl; auto. Qed.
  Lemma ids_from_elem t n l j : (t, (n + j)%nat) ∈ ids_from t n l ↔ (j < length l)%nat.
  Proof.
    unfold ids_from. rewrite elem_of_list_fmap. split.
    - intros (j' & E & Hj). apply elem_of_seq in Hj. simplify_eq. lia.
    - intros Hj. exists j. split; [done|]. apply elem_of_seq. lia.
  Qed.
  Lemma new_refs t n p s cs ads k i : i ∈ u_refs (new_user t n p s cs ads) k ↔ ∃ j, i = (t, (base k cs + j)%nat) ∧ (j < length (list_of k cs ads))%nat.
  Proof.
    assert (∀ m l, i ∈ ids_from t m l ↔ ∃ j, i = (t, (m + j)%nat) ∧ (j < length l)%nat) as H.
    { intros m l. split.
      - intros Hi. pose proof Hi as [j [-> Hj]]%elem_of_list_fmap. apply elem_of_seq in Hj. exists j. split; [done|lia].
      - intros (j & -> & Hj). by apply ids_from_elem. }
    destruct k; apply H.
  Qed.

  (** What the next call of a call can be when nothing is deleted *)
  Definition kfact (t : nat) (o : op) (p : prog) : Prop :=
    match p with
    | InsItem k i x q =>
        (∃ n pw s cs ads, o = PostUser n pw s cs ads ∧ goes q = true ∧ i.2 ≠ 0) ∨
        (∃ g, o = Post k g x ∧ i = (t, 0) ∧ goes q = false ∧ (g = Nobody ∧ q = Ret Ok ∨ ∃ u, g = Id u ∧ q = AddRef k u (t, 0) (Ret Ok)))
    | InsUser _ _ q q' => q = Ret Ok ∧ goes q' = false ∧ ∃ k is b q'', q' = DelItems k is b q''
    | DelItems k is b q => (∃ n pw s cs ads, o = PostUser n pw s cs ads) ∧ b = true ∧ (q = Ret Failed ∨ ∃ k is b q', q = DelItems k is b q') ∧ Forall (λ i, i.1 = t) is
    | DelUser _ _ | PullRef _ _ _ | FindUser _ _ => False
    | AddRef k u i q => (∃ x, o = Post k (Id u) x) ∧ i = (t, 0) ∧ q = Ret Ok
    | FindName _ _ | FindItems _ _ _ _ => ∃ n pw, o = Login n pw
    | Ret _ => True
    end.
  Lemma stage_kfact w t o p : no_delete o → stage w t o p → kfact t o p.
  Proof.
    assert (∀ m l, Forall (λ i : oid, i.1 = t) (ids_from t m l)) as Hids.
    { intros m l. apply Forall_forall. intros i Hi. by apply ids_from_in in Hi as [? _]. }
    intros Hn H. destruct H as [n p s cs ads dn l Hl|n p s cs ads dn l Hl| | | | | |n p i d|n p i d ads| | |k g x|k u x| |k g| | |g| | | | |]; simpl in *; try exact I; try (exfalso; exact Hn).
    - destruct l as [|x l]; simpl.
      + destruct ads as [|x ads]; simpl; [by eauto 10|]. left. do 5 eexists. split; [done|]. by rewrite goes_create.
      + left. do 5 eexists. split; [done|]. by rewrite !goes_create.
    - destruct l as [|x l]; simpl; [by eauto 10|]. left. do 5 eexists. split; [done|]. by rewrite goes_create.
    - split; [by eauto 10|]. split; [done|]. split; [by eauto 10|]. apply Hids.
    - split; [by eauto 10|]. split; [done|]. split; [by eauto 10|]. apply Hids.
    - eauto.
    - unfold login_addrs, login_cards, get_items. destruct (u_refs d Addrs); [|simpl; eauto]. destruct (u_refs d Cards); simpl; eauto.
    - unfold login_cards, get_items. destruct (u_refs d Cards); simpl; eauto.
    - destruct g as [| |u]; simpl; [right|done|right]; eauto 10.
    - eauto.
  Qed.
  Lemma no_delete_step e w w' : step hash e w = Some w' → keeps w e → kinv w → ∀ t o, op_at w' t o → no_delete o.
  Proof.
    intros Hs Hk Hi t o [th Ht]. destruct e as [o'|t' f|t']; simpl in Hs.
    - simplify_eq. simpl in Ht. apply lookup_app_Some in Ht as [Ht|[_ Ht]]; [eapply k_ops; [done|by eexists]|].
      apply list_lookup_singleton_Some in Ht as [_ Ht]. simplify_eq. by destruct o.
    - destruct (w_calls w !! t') as [[o' [p| |]]|] eqn:E; simplify_eq. simpl in Ht.
      apply list_lookup_insert_Some in Ht as [(->&Ht&_)|[_ Ht]]; [simplify_eq|]; eapply k_ops; try done; by eexists.
    - destruct (w_calls w !! t') as [[o' [p| |]]|] eqn:E; simplify_eq. simpl in Ht.
      apply list_lookup_insert_Some in Ht as [(->&Ht&_)|[_ Ht]]; [simplify_eq|]; eapply k_ops; try done; by eexists.
  Qed.
  (** A call of the database takes away only things made by the same call, of which there is no user *)
  Lemma keep_item w t o p k i x : inv w → kinv w → w_calls w !! t = Some (o, Running p) → (i, x) ∈ w_items w k →
    (i, x) ∈ (write p (w_users w, w_items w)).2 k ∨ (i.1 = t ∧ (∃ n pw s cs ads, o = PostUser n pw s cs ads) ∧ goes p = false).
  Proof.
    intros Hi Hk Ht Hx. pose proof (inv_calls _ Hi _ _ _ Ht) as [Hs _]. apply stage_kfact in Hs; [|eapply k_ops; [done|by eexists]].
    destruct p as [r|k' i' x' p|i' d' p q|k' is b p|i' p|k' v i' p|k' i' p|nm g|i' g|k' is g q]; simpl in *; try (by left);
      unfold on_kind, without; destruct (decide (k = k')) as [->|]; try (by left).
    - left. apply elem_of_app. by left.
    - destruct Hs as (Ho & _ & _ & Hall). rewrite Forall_forall in Hall. destruct (decide (i ∈ is)) as [Hin|Hin].
      + right. auto.
      + left. by apply elem_of_list_filter.
  Qed.
  Lemma keep_stored w t o p u d k i : inv w → kinv w → w_calls w !! t = Some (o, Running p) → (u, d) ∈ w_users w → i ∈ u_refs d k →
    ∃ x, (i, x) ∈ (write p (w_users w, w_items w)).2 k.
  Proof.
    intros Hi Hk Ht Hu Hr. destruct (k_refs _ Hk _ _ _ _ Hu Hr) as [x Hx]. exists x.
    destruct (keep_item _ _ _ _ _ _ _ Hi Hk Ht Hx) as [|(E & (n&pw&s&cs&ads&->) & _)]; [done|].
    destruct (inv_users _ Hi _ _ Hu) as [_ Ho]. specialize (Ho _ _ Hr). destruct Ho as [(n'&p'&s'&cs'&ads'&Ho&->)|[y Ho]].
    - destruct (k_users _ Hk _ _ Hu) as [o' Hd]. simpl in Hd. rewrite E, Ht in Hd. done.
    - rewrite E in Ho. destruct Ho as [th Ho]. rewrite Ht in Ho. done.
  Qed.
  Lemma keep_user w t o p u d : inv w → kinv w → w_calls w !! t = Some (o, Running p) → (u, d) ∈ w_users w →
    ∃ d', (u, d') ∈ (write p (w_users w, w_items w)).1 ∧ u_name d' = u_name d ∧ u_salt d' = u_salt d ∧ u_hash d' = u_hash d ∧ ∀ k i, i ∈ u_refs d k → i ∈ u_refs d' k.
  Proof.
    intros Hi Hk Ht Hu. pose proof (inv_calls _ Hi _ _ _ Ht) as [Hs _]. apply stage_kfact in Hs; [|eapply k_ops; [done|by eexists]].
    destruct p as [r|k' i' x' p|i' d' p q|k' is b p|i' p|k' v i' p|k' i' p|nm g|i' g|k' is g q]; simpl in *; try done; try (by exists d).
    - exists d. split; [|done]. apply elem_of_app. by left.
    - destruct (decide (u = v)) as [->|Hne].
      + exists (on_refs d k' (add_to_set i')). split.
        * apply elem_of_list_fmap. exists (v, d). simpl. destruct (decide (v = v)); done.
        * split; [done|]. split; [done|]. split; [done|]. intros k i Hr. simpl. destruct (decide (k = k')); [|done]. unfold add_to_set.
          destruct (decide _); [done|]. apply elem_of_app. by left.
      + exists d. split; [|done]. apply elem_of_list_fmap. exists (u, d). simpl. destruct (decide (u = v)); done.
  Qed.

  Lemma left_settle p : left (settle p) = todo p.
  Proof. by destruct p. Qed.
  Lemma live_settle p : live (settle p) = true → goes p = true ∨ p = Ret Ok.
  Proof. destruct p as [r| | | | | | | | |]; simpl; auto. destruct r; auto. Qed.
  Lemma goes_settle p : goes p = true → settle p = Running p.
  Proof. by destruct p. Qed.
  Lemma goes_post_user t n p s cs ads : goes (post_user hash t n p s cs ads) = true.
  Proof. unfold post_user. by rewrite !goes_create. Qed.
  Lemma todo_post_user t n p s cs ads k j x : list_of k cs ads !! j = Some x → (k, (t, (base k cs + j)%nat), x) ∈ todo (post_user hash t n p s cs ads).
  Proof.
    unfold post_user. rewrite !todo_create. intros H. destruct k; simpl in H.
    - apply elem_of_app. left. apply elem_of_lookup_imap. by exists j, x.
    - apply elem_of_app. right. apply elem_of_app. left. apply elem_of_lookup_imap. by exists j, x.
  Qed.
  Lemma users_from w t o p u d : w_calls w !! t = Some (o, Running p) → (u, d) ∈ (write p (w_users w, w_items w)).1 →
    (∃ d', (u, d') ∈ w_users w) ∨ (∃ q q', p = InsUser u d q q').
  Proof.
    intros Ht Hin. destruct p as [r|k' i' x' p|i' d' p q|k' is b p|i' p|k' v i' p|k' i' p|nm g|i' g|k' is g q]; simpl in *; eauto.
    - apply elem_of_app in Hin as [Hin|Hin]; [eauto|]. apply elem_of_list_singleton in Hin. simplify_eq. eauto.
    - apply elem_of_list_filter in Hin as [_ Hin]. eauto.
    - apply elem_of_list_fmap in Hin as [[v' d'] [E Hin]]. simpl in E. destruct (decide (v' = v)); simplify_eq; eauto.
    - apply elem_of_list_fmap in Hin as [[v' d'] [E Hin]]. simplify_eq/=. eauto.
  Qed.
  Lemma refs_from w t o p u d k i : w_calls w !! t = Some (o, Running p) → (u, d) ∈ (write p (w_users w, w_items w)).1 → i ∈ u_refs d k →
    (∃ d', (u, d') ∈ w_users w ∧ i ∈ u_refs d' k) ∨ (∃ q q', p = InsUser u d q q') ∨ (∃ q, p = AddRef k u i q).
  Proof.
    intros Ht Hin Hr. destruct p as [r|k' i' x' p|i' d' p q|k' is b p|i' p|k' v i' p|k' i' p|nm g|i' g|k' is g q]; simpl in *; eauto.
    - apply elem_of_app in Hin as [Hin|Hin]; [eauto|]. apply elem_of_list_singleton in Hin. simplify_eq. eauto.
    - apply elem_of_list_filter in Hin as [_ Hin]. eauto.
    - apply elem_of_list_fmap in Hin as [[v' d'] [E Hin]]. simpl in E. destruct (decide (v' = v)) as [->|]; simplify_eq; [|eauto].
      simpl in Hr. destruct (decide (k = k')) as [->|]; [|eauto]. unfold add_to_set in Hr. destruct (decide _); [eauto|].
      apply elem_of_app in Hr as [Hr|Hr]; [eauto|]. apply elem_of_list_singleton in Hr as ->. eauto.
    - apply elem_of_list_fmap in Hin as [[v' d'] [E Hin]]. simplify_eq/=. destruct (decide (k = k')); [|eauto]. apply elem_of_list_filter in Hr as [_ Hr]. eauto.
  Qed.
  Lemma kinv_started : kinv started.
  Proof.
    split; simpl; [intros t o [th H]; by destruct t| | |intros *; rewrite lookup_nil; done..].
    - intros u d H. by apply elem_of_nil in H.
    - intros u d k i H. by apply elem_of_nil in H.
  Qed.
  Lemma kinv_start w o : inv w → kinv w → keeps w (Start o) → kinv (World (w_users w) (w_items w) (w_calls w ++ [(o, settle (program hash (length (w_calls w)) o))])).
  Proof.
    intros Hi Hk Hkeep. split; simpl.
    - by apply (no_delete_step (Start o) w _ eq_refl).
    - intros u d Hu. destruct (k_users _ Hk _ _ Hu) as [o' Ho]. exists o'. by apply lookup_app_l_Some.
    - apply (k_refs _ Hk).
    - intros t n p s cs ads th k j x Ht Hl Hx. apply lookup_app_Some in Ht as [Ht|[Hlen Ht]]; [by eapply (k_made _ Hk)|].
      apply list_lookup_singleton_Some in Ht as [Ht E]. simplify_eq. right. rewrite left_settle.
      replace t with (length (w_calls w)) by lia. by apply todo_post_user.
    - intros t n p s cs ads Ht. apply lookup_app_Some in Ht as [Ht|[Hlen Ht]]; [by apply (k_created _ Hk) in Ht|].
      apply list_lookup_singleton_Some in Ht as [_ E]. injection E as -> E. simpl in E. by rewrite goes_settle in E by apply goes_post_user.
    - intros t k g x th Ht Hc. apply lookup_app_Some in Ht as [Ht|[Hlen Ht]]; [by eapply (k_posted _ Hk)|].
      apply list_lookup_singleton_Some in Ht as [_ E]. simplify_eq. destruct g; simpl in Hc; naive_solver.
  Qed.
  Lemma kinv_do w t f o p : inv w → kinv w → keeps w (Step t f) → w_calls w !! t = Some (o, Running p) →
    ∀ w', step hash (Step t f) w = Some w' → kinv w'.
  Proof.
    intros Hi Hk Hkeep Ht w' Hs. pose proof (no_delete_step _ _ _ Hs Hkeep Hk) as Hnd. simpl in Hs. rewrite Ht in Hs. injection Hs as <-.
    set (s' := if done_by f then write p (w_users w, w_items w) else (w_users w, w_items w)) in *.
    pose proof (inv_calls _ Hi _ _ _ Ht) as [Hst Hrun]. assert (no_delete o) as Ho by (eapply k_ops; [done|by eexists]).
    pose proof (stage_kfact _ _ _ _ Ho Hst) as Hf. pose proof (stage_fact _ _ _ _ Hst) as Hf2.
    assert (Hitem : ∀ k i x, i.1 ≠ t → (i, x) ∈ w_items w k → (i, x) ∈ s'.2 k).
    { intros k i x Hne Hx. unfold s'. destruct (done_by f); [|done]. destruct (keep_item _ _ _ _ _ _ _ Hi Hk Ht Hx) as [|[? _]]; done. }
    assert (Hgo : ∀ k i x, goes p = true → (i, x) ∈ w_items w k → (i, x) ∈ s'.2 k).
    { intros k i x Hg Hx. unfold s'. destruct (done_by f); [|done]. destruct (keep_item _ _ _ _ _ _ _ Hi Hk Ht Hx) as [|(_&_&?)]; [done|congruence]. }
    assert (Hins : ∀ u d q q', p = InsUser u d q q' → done_by f = true → f = Fine).
    { intros u d q q' -> Hd. destruct f; [done|done|]. simpl in Hkeep. by destruct (Hkeep o u d q q'). }
    split; simpl.
    - done.
    - intros u d Hu. assert ((∃ d', (u, d') ∈ w_users w) ∨ (∃ q q', p = InsUser u d q q') ∧ done_by f = true) as [[d' Hd]|[(q & q' & ->) Hd]].
      { unfold s' in Hu. destruct (done_by f); [|eauto]. destruct (users_from _ _ _ _ _ _ Ht Hu); eauto. }
      + destruct (k_users _ Hk _ _ Hd) as [o' Hc]. exists o'. rewrite list_lookup_insert_ne; [done|]. intros ->. congruence.
      + rewrite (Hins _ _ _ _ eq_refl Hd). simpl in Hf, Hf2. destruct Hf as [-> _]. destruct Hf2 as [-> _]. simpl. exists o.
        rewrite list_lookup_insert; [done|]. by eapply lookup_lt_Some.
    - intros u d k i Hu Hr. unfold s' in Hu. unfold stored; simpl. destruct (done_by f) eqn:Hd; [|by apply (k_refs _ Hk u d)].
      destruct (refs_from _ _ _ _ _ _ _ _ Ht Hu Hr) as [(d' & Hd' & Hr')|[(q & q' & ->)|[q ->]]].
      + by eapply keep_stored.
      + simpl in Hf2. destruct Hf2 as [-> (n&pw&s&cs&ads&->&->)]. apply new_refs in Hr as (j & -> & Hj).
        apply lookup_lt_is_Some in Hj as [x Hx]. exists x. destruct (k_made _ Hk _ _ _ _ _ _ _ _ _ _ Ht eq_refl Hx) as [H|H]; [done|]. by apply elem_of_nil in H.
      + simpl in Hf. destruct Hf as [[x ->] [-> _]]. exists x. apply (k_posted _ Hk _ _ _ _ _ Ht). left. eauto.
    - intros t' n pw s cs ads th k j x Ht' Hl Hx. apply list_lookup_insert_Some in Ht' as [(->&E&_)|[Hne Ht']].
      + injection E as -> <-. rewrite left_settle.
        destruct p as [r|k' i' x' p|i' d' p q|k' is b p|i' p|k' v i' p|k' i' p|nm g|i' g|k' is g q]; simpl in Hf, Hl |- *; try done.
        * destruct Hf as [(?&?&?&?&?&_&Hq&_)|(g&?&_)]; [|done]. destruct f; simpl in Hl |- *; try done.
          destruct (k_made _ Hk _ _ _ _ _ _ _ _ _ _ Ht Hq Hx) as [H|H]; [left; by apply Hgo|]. simpl in H. apply elem_of_cons in H as [H|H]; [|by right].
          left. simplify_eq. unfold on_kind. destruct (decide (k' = k')); [|done]. apply elem_of_app. right. set_solver.
        * destruct Hf as (-> & Hq & k1 & is1 & b1 & q1 & ->). left. apply Hgo; [done|].
          destruct (k_made _ Hk _ _ _ _ _ _ _ _ _ _ Ht eq_refl Hx) as [H|H]; [done|]. by apply elem_of_nil in H.
        * destruct Hf as (_ & -> & Hq & _). rewrite orb_true_r in Hl. by destruct Hq as [->|(?&?&?&?&->)].
        * by destruct Hf as [[y ?] _].
        * by destruct Hf as (?&?&?).
        * by destruct Hf as (?&?&?).
      + destruct (k_made _ Hk _ _ _ _ _ _ _ _ _ _ Ht' Hl Hx) as [H|H]; [left; by apply Hitem|by right].
    - intros t' n pw s cs ads Ht'. apply list_lookup_insert_Some in Ht' as [(->&E&_)|[Hne Ht']].
      + injection E as -> E.
        destruct p as [r|k' i' x' p|i' d' p q|k' is b p|i' p|k' v i' p|k' i' p|nm g|i' g|k' is g q]; simpl in Hf, E |- *; try done.
        * destruct Hf as [(?&?&?&?&?&_&Hq&_)|(g&?&_)]; [|done]. destruct f; simpl in E; try done. by rewrite goes_settle in E.
        * destruct Hf as (-> & Hq & k1 & is1 & b1 & q1 & ->). simpl in Hf2. destruct Hf2 as [-> (n'&pw'&s0&cs'&ads'&?&->)]. simplify_eq.
          destruct f; simpl in E; try done. exists (new_user t' n' pw' s0 cs' ads'). simpl. split; [apply elem_of_app; right; set_solver|].
          split; [done|]. split; [done|]. split; [done|]. intros k j Hj. apply (new_refs t' n' pw' s0 cs' ads' k). eauto.
        * destruct Hf as (_ & -> & Hq & _). rewrite orb_true_r in E. by destruct Hq as [->|(?&?&?&?&->)].
        * by destruct Hf as [[y ?] _].
        * by destruct Hf as (?&?&?).
        * by destruct Hf as (?&?&?).
      + destruct (k_created _ Hk _ _ _ _ _ _ Ht') as (d & Hd & Hn & Hsalt & Hh & Hr). unfold holds_user, s'; simpl. destruct (done_by f); [|by exists d].
        destruct (keep_user _ _ _ _ _ _ Hi Hk Ht Hd) as (d' & Hd' & E1 & E2 & E3 & Hr'). exists d'. split; [done|]. rewrite E1, E2, E3. do 3 (split; [done|]). intros k j Hj. by apply Hr', Hr.
    - intros t' k g x th Ht' Hc. apply list_lookup_insert_Some in Ht' as [(->&E&_)|[Hne Ht']].
      + injection E as -> <-.
        destruct p as [r|k' i' x' p|i' d' p q|k' is b p|i' p|k' v i' p|k' i' p|nm gg|i' gg|k' is gg q]; simpl in Hf; try done.
        * destruct Hf as [(?&?&?&?&?&?&_)|(g'&E&->&_)]; [done|]. simplify_eq. destruct f; simpl in Hc.
          -- simpl. unfold on_kind. destruct (decide (k' = k')); [|done]. apply elem_of_app. right. set_solver.
          -- naive_solver.
          -- naive_solver.
        * by destruct Hf2 as [_ (?&?&?&?&?&?&_)].
        * by destruct Hf as [(?&?&?&?&?&?) _].
        * destruct Hf as [[y E] [-> ->]]. simplify_eq. assert (((t', 0), y) ∈ w_items w k') as H by (apply (k_posted _ Hk _ _ _ _ _ Ht); left; eauto).
          unfold s'. by destruct (done_by f).
        * by destruct Hf as (?&?&?).
        * by destruct Hf as (?&?&?).
      + apply Hitem; [done|]. by eapply (k_posted _ Hk).
  Qed.
  Lemma kinv_step e w w' : step hash e w = Some w' → keeps w e → inv w → kinv w → kinv w'.
  Proof.
    intros Hs Hkeep Hi Hk. destruct e as [o|t f|t].
    - simpl in Hs. injection Hs as <-. by apply kinv_start.
    - pose proof Hs as Hs'. simpl in Hs'. destruct (w_calls w !! t) as [[o [p| |]]|] eqn:Ht; try done. by eapply kinv_do.
    - pose proof (no_delete_step _ _ _ Hs Hkeep Hk) as Hnd. simpl in Hs. destruct (w_calls w !! t) as [[o [p| |]]|] eqn:Ht; simplify_eq. split; simpl.
      + done.
      + intros u d Hu. destruct (k_users _ Hk _ _ Hu) as [o' Hc]. exists o'. rewrite list_lookup_insert_ne; [done|]. intros ->. congruence.
      + apply (k_refs _ Hk).
      + intros t' n p' s cs ads th k j x Ht' Hl Hx. apply list_lookup_insert_Some in Ht' as [(->&E&_)|[_ Ht']]; [by simplify_eq|by eapply (k_made _ Hk)].
      + intros t' n p' s cs ads Ht'. apply list_lookup_insert_Some in Ht' as [(->&E&_)|[_ Ht']]; [by simplify_eq|by apply (k_created _ Hk) in Ht'].
      + intros t' k g x th Ht' Hc. apply list_lookup_insert_Some in Ht' as [(->&E&_)|[_ Ht']]; [simplify_eq; naive_solver|by eapply (k_posted _ Hk)].
  Qed.
  Lemma kinv_run w es w' : run hash keeps w es w' → inv w → kinv w → inv w' ∧ kinv w'.
  Proof. induction 1 as [|w es w1 e w2 Hr IH Hp Hs]; [done|]. intros Hi Hk. destruct IH as [Hi1 Hk1]; [done..|]. eauto using inv_step, kinv_step. Qed.
  Lemma kinv_history es w : run hash keeps started es w → inv w ∧ kinv w.
  Proof. intros H. eapply kinv_run; [done|apply inv_started|apply kinv_started]. Qed.
  Lemma user_step e w w' u d : step hash e w = Some w' → inv w → kinv w → (u, d) ∈ w_users w →
    ∃ d', (u, d') ∈ w_users w' ∧ u_name d' = u_name d ∧ u_salt d' = u_salt d ∧ u_hash d' = u_hash d ∧ ∀ k i, i ∈ u_refs d k → i ∈ u_refs d' k.
  Proof.
    intros Hs Hi Hk Hu. destruct e as [o|t f|t]; simpl in Hs.
    - simplify_eq. by exists d.
    - destruct (w_calls w !! t) as [[o [p| |]]|] eqn:Ht; simplify_eq. simpl. destruct (done_by f); [by eapply keep_user|by exists d].
    - destruct (w_calls w !! t) as [[o [p| |]]|] eqn:Ht; simplify_eq. by exists d.
  Qed.
  Lemma posted w1 es w2 u k t x : run hash keeps w1 es w2 → inv w1 → kinv w1 → has_user w1 u → (length (w_calls w1) ≤ t)%nat →
    w_calls w2 !! t = Some (Post k (Id u) x, Done Ok) → lists w2 k u (t, 0).
  Proof.
    intros Hr Hi Hk Hu Hl.
    assert (inv w2 ∧ kinv w2 ∧ has_user w2 u ∧ (w_calls w2 !! t = Some (Post k (Id u) x, Done Ok) → lists w2 k u (t, 0))) as (_&_&_&H); [|done].
    induction Hr as [w|w es w2 e w3 Hr IH HP Hs].
    - do 3 (split; [done|]). intros Ht. apply lookup_lt_Some in Ht. lia.
    - destruct IH as (Hi2 & Hk2 & Hu2 & IH); [done..|]. split; [by eapply inv_step|]. split; [by eapply kinv_step|]. split.
      { destruct Hu2 as [d Hd]. destruct (user_step _ _ _ _ _ Hs Hi2 Hk2 Hd) as (d' & Hd' & _). by exists d'. }
      assert (Hold : lists w2 k u (t, 0) → lists w3 k u (t, 0)).
      { intros (d & Hd & Hx). destruct (user_step _ _ _ _ _ Hs Hi2 Hk2 Hd) as (d' & Hd' & _ & _ & _ & Hsub). exists d'. auto. }
      intros Ht. destruct e as [o|t' f|t']; simpl in Hs.
      + simplify_eq. simpl in Ht. apply lookup_app_Some in Ht as [Ht|[_ Ht]]; [by apply Hold, IH|].
        apply list_lookup_singleton_Some in Ht as [_ Ht]. by simplify_eq.
      + destruct (w_calls w2 !! t') as [[o [p| |]]|] eqn:E; simplify_eq. simpl in Ht. apply list_lookup_insert_Some in Ht as [(->&Ht&_)|[_ Ht]]; [|by apply Hold, IH].
        injection Ht as -> Ht. pose proof (inv_calls _ Hi2 _ _ _ E) as [Hst Hrun].
        inversion Hst; subst; simpl in *; try done; destruct f; simpl in *; try done.
        destruct Hu2 as [d Hd]. exists (on_refs d k (add_to_set (t, 0))). simpl. split.
        * apply elem_of_list_fmap. exists (u, d). simpl. destruct (decide (u = u)); done.
        * destruct (decide (k = k)); [|done]. unfold add_to_set. destruct (decide _); [done|]. set_solver.
      + destruct (w_calls w2 !! t') as [[o [p| |]]|] eqn:E; simplify_eq. simpl in Ht. apply list_lookup_insert_Some in Ht as [(->&Ht&_)|[_ Ht]]; [done|by apply Hold, IH].
  Qed.

  (** ** Logging in works *)
  Lemma nodup_step e w w' : step hash e w = Some w' → inv w → kinv w → NoDup (w_users w).*1 → NoDup (w_users w').*1.
  Proof.
    intros Hs Hi Hk Hn. destruct e as [o|t f|t]; simpl in Hs.
    - by simplify_eq.
    - destruct (w_calls w !! t) as [[o [p| |]]|] eqn:Ht; simplify_eq. simpl. destruct (done_by f); [|done].
      pose proof (inv_calls _ Hi _ _ _ Ht) as [Hst _]. pose proof (stage_fact _ _ _ _ Hst) as Hf.
      apply stage_kfact in Hst; [|eapply k_ops; [done|by eexists]].
      destruct p as [r|k' i' x' p|i' d' p q|k' is b p|i' p|k' v i' p|k' i' p|nm g|i' g|k' is g q]; simpl in *; try done.
      + rewrite fmap_app. apply NoDup_app. split; [done|]. split; [|apply NoDup_singleton].
        intros u [[u' d] [-> Hu]]%elem_of_list_fmap Hx. apply elem_of_list_singleton in Hx. simpl in Hx. subst u'. destruct Hf as [-> _].
        destruct (k_users _ Hk _ _ Hu) as [o' Ho]. simpl in Ho. congruence.
      + rewrite <-list_fmap_compose. erewrite list_fmap_ext; [exact Hn|]. intros j [u d] _. simpl. by destruct (decide (u = v)).
    - destruct (w_calls w !! t) as [[o [p| |]]|] eqn:Ht; by simplify_eq.
  Qed.
  Lemma nodup_history es w : run hash keeps started es w → NoDup (w_users w).*1.
  Proof.
    intros H. remember started as w0 eqn:E0. induction H as [|w1 es w2 e w3 Hr IH HP Hs]; subst; [constructor|].
    destruct (kinv_history _ _ Hr). eapply nodup_step; eauto.
  Qed.
  Lemma find_all w k d x i : (i, x) ∈ w_items w k → i ∈ u_refs d k → x ∈ find_items (w_items w k) (u_refs d k).
  Proof. intros Hx Hi. unfold find_items. apply elem_of_list_fmap. exists (i, x). split; [done|]. by apply elem_of_list_filter. Qed.
  Definition things (w : world) (k : kind) (d : user) : list string := match u_refs d k with [] => [] | _ :: _ => find_items (w_items w k) (u_refs d k) end.
  Lemma things_all w k d x i : (i, x) ∈ w_items w k → i ∈ u_refs d k → x ∈ things w k d.
  Proof. intros Hx Hi. unfold things. destruct (u_refs d k) eqn:E; [by apply elem_of_nil in Hi|]. rewrite <-E in *. by eapply find_all. Qed.
  Lemma things_given w k i d : inv w → user_ok w i d → Forall (given_for w k i) (things w k d).
  Proof. intros Hi Hu. unfold things. destruct (u_refs d k) eqn:E; [constructor|]. rewrite <-E. by apply find_given. Qed.
  Lemma alone_step w o p t : w_calls w !! t = Some (o, Running p) → write p (w_users w, w_items w) = (w_users w, w_items w) →
    step hash (Step t Fine) w = Some (World (w_users w) (w_items w) (<[t := (o, settle (next p true (w_users w, w_items w)))]> (w_calls w))).
  Proof. intros Ht Hw. unfold step. rewrite Ht. cbn [done_by fine]. by rewrite Hw. Qed.
  Lemma run_one (P : world → event → Prop) w e w' : P w e → step hash e w = Some w' → run hash P w [e] w'.
  Proof. intros. apply (run_snoc hash P w [] w e w'); [constructor|done|done]. Qed.
  Lemma run_app (P : world → event → Prop) w es w1 es' w2 : run hash P w es w1 → run hash P w1 es' w2 → run hash P w (es ++ es') w2.
  Proof. intros H1 H2. induction H2; [by rewrite app_nil_r|]. rewrite app_assoc. eapply run_snoc; eauto. Qed.
  Definition finds (p : prog) : Prop := match p with FindItems _ _ _ _ => True | _ => False end.
  Lemma go_items w o k is f q t : w_calls w !! t = Some (o, settle (get_items k is f q)) →
    ∃ es, Forall (eq (Step t Fine)) es ∧
      run hash (λ _ _, True) w es (World (w_users w) (w_items w) (<[t := (o, settle (f (match is with [] => [] | _ => find_items (w_items w k) is end)))]> (w_calls w))).
  Proof.
    intros Ht. unfold get_items in Ht. destruct is as [|i is].
    - exists []. split; [done|]. rewrite list_insert_id by done. destruct w. constructor.
    - exists [Step t Fine]. split; [by repeat constructor|]. apply run_one; [done|]. simpl in Ht. by rewrite (alone_step _ _ _ _ Ht eq_refl).
  Qed.
  Lemma login_works w n p s cs ads t0 : inv w → kinv w → NoDup (w_users w).*1 →
    w_calls w !! t0 = Some (PostUser n p s cs ads, Done Ok) →
    (∀ t p' s' cs' ads' th, w_calls w !! t = Some (PostUser n p' s' cs' ads', th) → t = t0) →
    (∀ x, given_for w Cards (t0, 0) x → (4 ≤ String.length x)%nat) →
    ∃ es w' cs' ads', Forall (eq (Step (length (w_calls w)) Fine)) es ∧ run hash (λ _ _, True) w (Start (Login n p) :: es) w' ∧
      w_calls w' !! length (w_calls w) = Some (Login n p, Done (Found (t0, 0) cs' ads')) ∧
      (∀ i x, lists w Addrs (t0, 0) i → (i, x) ∈ w_items w Addrs → x ∈ ads') ∧
      (∀ i x, lists w Cards (t0, 0) i → (i, x) ∈ w_items w Cards → ∃ m, m ∈ cs' ∧ masks m x).
  Proof.
    intros Hi Hk Hnd Ht Huniq Hlong. set (t := length (w_calls w)).
    destruct (k_created _ Hk _ _ _ _ _ _ Ht) as (d & Hd & Hn & Hs & Hp & Hr).
    assert (Hone : ∀ d', ((t0, 0), d') ∈ w_users w → d' = d).
    { assert (∀ j d', w_users w !! j = Some ((t0, 0), d') → (w_users w).*1 !! j = Some (t0, 0)) as Hf.
      { intros j d' Hj. rewrite list_lookup_fmap. apply (f_equal (fmap fst)) in Hj. exact Hj. }
      intros d' Hd'. apply elem_of_list_lookup in Hd as [j1 H1]. apply elem_of_list_lookup in Hd' as [j2 H2].
      assert (j2 = j1) as -> by (apply (NoDup_lookup (w_users w).*1 j2 j1 (t0, 0) Hnd); [exact (Hf _ _ H2)|exact (Hf _ _ H1)]). congruence. }
    assert (Hfind : find_name (w_users w) n = Some ((t0, 0), d)).
    { unfold find_name. destruct (filter _ _) as [|[u d'] l] eqn:E.
      - exfalso. apply (filter_nil_not_elem_of _ _ _ E) in Hd; [done|]. done.
      - assert ((u, d') ∈ filter (λ x : oid * user, u_name x.2 = n) (w_users w)) as Hin by (rewrite E; set_solver).
        apply elem_of_list_filter in Hin as [Hn' Hin]. simpl in Hn'. destruct (inv_users _ Hi _ _ Hin) as [(p'&cs'&ads'&[th Ho]&H0&_) _].
        rewrite Hn' in Ho. apply Huniq in Ho. destruct u as [u1 u2]. simpl in Ho, H0. subst u1 u2. simpl. by rewrite (Hone _ Hin). }
    pose proof (inv_users _ Hi _ _ Hd) as Hu.
    destruct (mask_all_some (things w Cards d)) as [ms Hms].
    { eapply Forall_impl; [by apply things_given|]. intros x. apply Hlong. }
    set (w1 := World (w_users w) (w_items w) (w_calls w ++ [(Login n p, Running (login hash n p))])).
    assert (H1 : w_calls w1 !! t = Some (Login n p, Running (login hash n p))) by (simpl; rewrite lookup_app_r by done; by rewrite Nat.sub_diag).
    set (w2 := World (w_users w) (w_items w) (<[t := (Login n p, settle (login_addrs (t0, 0) d))]> (w_calls w1))).
    assert (Hl : (t < length (w_calls w1))%nat) by (simpl; rewrite app_length; simpl; lia).
    assert (H12 : step hash (Step t Fine) w1 = Some w2).
    { rewrite (alone_step _ _ _ _ H1 eq_refl). unfold w2. simpl. rewrite Hfind. rewrite bool_decide_true by (by rewrite Hs). done. }
    assert (H2 : w_calls w2 !! t = Some (Login n p, settle (login_addrs (t0, 0) d))) by (simpl; by apply list_lookup_insert).
    destruct (go_items w2 _ _ _ _ _ _ H2) as (es2 & He2 & Hr2). fold (things w2 Addrs d) in Hr2.
    match type of Hr2 with run _ _ _ _ ?w3 => assert (H3 : w_calls w3 !! t = Some (Login n p, settle (login_cards (t0, 0) d (things w2 Addrs d))));
      [simpl; apply list_lookup_insert; by rewrite insert_length|]; destruct (go_items w3 _ _ _ _ _ _ H3) as (es3 & He3 & Hr3) end.
    match type of Hr3 with run _ _ _ _ ?w4 => exists (Step t Fine :: es2 ++ es3), w4 end.
    exists ms, (things w Addrs d). split; [constructor; [done|]; by apply Forall_app|]. split.
    { change (Start (Login n p) :: Step t Fine :: es2 ++ es3) with ([Start (Login n p)] ++ [Step t Fine] ++ es2 ++ es3).
      eapply run_app; [apply run_one; [done|]; by instantiate (1 := w1)|]. eapply run_app; [by apply run_one|]. by eapply run_app. }
    split; [|split].
    - simpl. rewrite list_lookup_insert by (by rewrite !insert_length). change (mask_all _) with (mask_all (things w Cards d)). by rewrite Hms.
    - intros i x (d' & Hd' & Hx) Hix. apply Hone in Hd' as ->. by eapply things_all.
    - intros i x (d' & Hd' & Hx) Hix. apply Hone in Hd' as ->. assert (x ∈ things w Cards d) as Hin by (by eapply things_all).
      apply elem_of_list_lookup in Hin as [j Hj]. apply mask_all_ok in Hms. destruct (Forall2_lookup_l _ _ _ _ _ Hms Hj) as (m & Hm & Hxm).
      exists m. split; [by eapply elem_of_list_lookup_2|]. by apply mask_ok.
  Qed.
End inv.
