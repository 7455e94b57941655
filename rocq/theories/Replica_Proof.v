From Verif Require Import Replica_Model Replica_Spec.
From Verif Require Filter_Proof.
From stdpp Require Import list.
Set Default Proof Using "Type".
Open Scope string_scope.
Open Scope list_scope.

(** ** Strings *)
Fixpoint lead (s : string) : string :=
  match s with String c r => match Filter_Model.digit c with Some _ => String c (lead r) | None => "" end | EmptyString => "" end.
Lemma cons_app c s t : String c s +:+ t = String c (s +:+ t).
Proof. done. Qed.
Lemma lead_app s t : Filter_Proof.all_digits s = true → lead t = "" → lead (s +:+ t) = s.
Proof.
  induction s as [|c s IH]; intros Hs Ht; [done|]. rewrite cons_app. cbn [lead Filter_Proof.all_digits] in *. destruct (Filter_Model.digit c); [|done]. f_equal. by apply IH.
Qed.
Lemma digits_nat (i : nat) : Filter_Proof.all_digits (pretty i) = true ∧ pretty i ≠ "".
Proof. destruct (Filter_Proof.pretty_digits (N.of_nat i)) as (? & _ & ?). done. Qed.
Lemma app_assoc_s (a b c : string) : (a +:+ b) +:+ c = a +:+ (b +:+ c).
Proof. induction a as [|x a IH]; [done|]. rewrite ?cons_app. by f_equal. Qed.
Lemma app_nil_s (a : string) : a +:+ "" = a.
Proof. induction a as [|x a IH]; [done|]. rewrite ?cons_app. by f_equal. Qed.
Lemma sub_inj s : Inj (=) (=) (sub s).
Proof. intros m m' H. unfold sub in H. apply (inj _) in H. by injection H. Qed.
Lemma len_app (a b : string) : String.length (a +:+ b) = String.length a + String.length b.
Proof. induction a as [|x a IH]; [done|]. rewrite cons_app. cbn [String.length]. lia. Qed.
Lemma sub_ne s m : sub s m ≠ s.
Proof. intros H%(f_equal String.length). unfold sub in H. rewrite len_app in H. simpl in H. lia. Qed.

Definition owned (s x : string) : Prop := x = s ∨ ∃ m, x = sub s m.
Lemma owned_tail s x : owned s x → ∃ t, x = s +:+ t ∧ lead t = "".
Proof. intros [->|[m ->]]; [exists ""; by rewrite app_nil_s|]. by exists ("." +:+ m). Qed.
Lemma owned_replica g i j x : owned (replica_name g i) x → owned (replica_name g j) x → i = j.
Proof.
  intros (t & -> & Ht)%owned_tail (t' & H & Ht')%owned_tail. unfold replica_name in H. rewrite !app_assoc_s in H.
  apply (inj _) in H. simpl in H. injection H as H. apply (f_equal lead) in H.
  rewrite !lead_app in H by (done || apply digits_nat). by apply (inj pretty) in H.
Qed.
Lemma owned_lb g i x : owned (replica_name g i) x → owned (lb_name g) x → False.
Proof.
  intros (t & -> & Ht)%owned_tail (t' & H & Ht')%owned_tail. unfold replica_name, lb_name in H. rewrite !app_assoc_s in H.
  apply (inj _) in H. simpl in H. injection H as H. apply (f_equal lead) in H.
  rewrite lead_app in H by (done || apply digits_nat). by apply digits_nat in H.
Qed.
Lemma split_last {A} (x : A) l1 l2 l1' l2' : x ∉ l2 → x ∉ l2' → l1 ++ x :: l2 = l1' ++ x :: l2' → l1 = l1' ∧ l2 = l2'.
Proof.
  intros H H'. revert l1'. induction l1 as [|a l1 IH]; intros [|a' l1']; simpl.
  - by intros [= ->].
  - intros [= -> ->]. destruct H. set_solver.
  - intros [= -> <-]. destruct H'. set_solver.
  - intros [= -> [-> ->]%IH]. done.
Qed.
Lemma las_app a b : String.list_ascii_of_string (a +:+ b) = String.list_ascii_of_string a ++ String.list_ascii_of_string b.
Proof. induction a as [|c a IH]; [done|]. rewrite cons_app. simpl. by f_equal. Qed.
Lemma las_inj : Inj (=) (=) String.list_ascii_of_string.
Proof. intros a b H. by rewrite <- (String.string_of_list_ascii_of_string a), H, String.string_of_list_ascii_of_string. Qed.
Definition underscore : Ascii.ascii := Ascii.ascii_of_nat 95.
Lemma digits_no_underscore s : Filter_Proof.all_digits s = true → underscore ∉ String.list_ascii_of_string s.
Proof.
  induction s as [|c s IH]; simpl; [by intros _ ?%elem_of_nil|]. destruct (Filter_Model.digit c) eqn:Hc; [|done]. intros Hs.
  apply not_elem_of_cons. split; [|by apply IH]. intros <-. by vm_compute in Hc.
Qed.
Lemma suffix_inj g g' t t' : underscore ∉ String.list_ascii_of_string t → underscore ∉ String.list_ascii_of_string t' →
  g +:+ "_" +:+ t = g' +:+ "_" +:+ t' → g = g' ∧ t = t'.
Proof.
  intros H H' E. apply (f_equal String.list_ascii_of_string) in E. rewrite !las_app in E. simpl in E.
  apply split_last in E as [? ?]; [|done|done]. split; by apply las_inj.
Qed.

(** ** Instances *)
Lemma instances_snoc ns x : instances (ns ++ [x]) = match instances ns !! n_name x with Some _ => instances ns | None => <[n_name x := n_code x]> (instances ns) end.
Proof. unfold instances. by rewrite foldl_app. Qed.
Lemma instances_dom ns x : is_Some (instances ns !! x) ↔ x ∈ n_name <$> ns.
Proof.
  induction ns as [|y ns IH] using rev_ind; [split; [by intros [? ?]|by intros ?%elem_of_nil]|].
  rewrite instances_snoc, fmap_app, elem_of_app. simpl. rewrite elem_of_list_singleton.
  destruct (instances ns !! n_name y) eqn:Hy.
  - rewrite IH. split; [by left|]. intros [?| ->]; [done|]. apply IH. by rewrite Hy.
  - rewrite lookup_insert_is_Some, IH. destruct (decide (n_name y = x)) as [->|]; naive_solver.
Qed.
Lemma instances_elem ns x : NoDup (n_name <$> ns) → x ∈ ns → instances ns !! n_name x = Some (n_code x).
Proof.
  induction ns as [|y ns IH] using rev_ind; [by intros _ ?%elem_of_nil|].
  rewrite fmap_app, NoDup_app, elem_of_app, instances_snoc. simpl. intros (Hnd & Hd & _) Hx.
  assert (instances ns !! n_name y = None) as Hy.
  { apply eq_None_not_Some. rewrite instances_dom. intros ?. apply (Hd (n_name y)); [done|]. by left. }
  rewrite Hy. rewrite elem_of_list_singleton in Hx. destruct Hx as [Hx| ->]; [|by rewrite lookup_insert].
  rewrite lookup_insert_ne; [by apply IH|]. intros He. apply (Hd (n_name x)); [by apply elem_of_list_fmap_1|]. rewrite He. by left.
Qed.

(** ** Names of the nodes *)
Lemma wraps_names s u ms : n_name <$> wraps s u ms = sub s <$> ms.
Proof. revert u. induction ms as [|m ms IH]; intros u; [done|]. simpl. by rewrite IH. Qed.
Lemma elem_concat {A} (x : A) ls : x ∈ concat ls ↔ ∃ l, x ∈ l ∧ l ∈ ls.
Proof. rewrite elem_of_list_In, in_concat. setoid_rewrite elem_of_list_In. naive_solver. Qed.
Lemma NoDup_rev (l : list string) : NoDup l → NoDup (reverse l).
Proof. by rewrite reverse_Permutation. Qed.
Lemma NoDup_subs s ms : NoDup ms → NoDup (sub s <$> ms).
Proof. pose proof (sub_inj s). by apply NoDup_fmap_2. Qed.
(** The names of a service's nodes, all suffixes of its own: empty or with a modifier *)
Definition local_names (s : string) (d : deployed) : list string := s :: (sub s <$> d_server d ++ reverse (d_client d)).
Lemma local_nodup s d : distinct d → NoDup (local_names s d).
Proof.
  unfold distinct. rewrite !NoDup_cons, NoDup_app. intros (_ & _ & Hc & Hd & Hs). apply NoDup_cons. split.
  - rewrite elem_of_list_fmap. intros (m & H & _). by apply (sub_ne s m).
  - apply NoDup_subs. apply NoDup_app. split; [done|]. split; [|by apply NoDup_rev].
    intros m Hm. rewrite elem_of_reverse. intros ?. by apply (Hd m).
Qed.
Lemma replica_names_nodup s d : distinct d → NoDup (n_name <$> replica_nodes s d).
Proof.
  intros Hd. pose proof (local_nodup s d Hd) as Hl. unfold replica_nodes, client_nodes.
  assert (∀ l, NoDup (sub s <$> l) → (∀ m, m ∈ l → m ∈ d_client d ++ d_server d ∨ m = "grpc_client") → NoDup ((sub s <$> l) ++ [replica_client s])) as Happ.
  { intros l Hl' Hm. apply NoDup_app. split; [done|]. split; [|apply NoDup_singleton]. intros x (m & -> & Hin)%elem_of_list_fmap.
    intros He%elem_of_list_singleton. apply (inj (sub s)) in He. subst m. unfold distinct in Hd. rewrite !NoDup_cons in Hd.
    destruct Hd as (H1 & _ & _). apply H1. apply elem_of_cons. destruct (Hm _ Hin) as [?| ?]; [by right|done]. }
  destruct (d_rpc d); rewrite !fmap_app, wraps_names; simpl.
  - change (sub s "grpc_client" :: (sub s <$> reverse (d_client d)) ++ [replica_client s])
      with ((sub s <$> "grpc_client" :: reverse (d_client d)) ++ [replica_client s]).
    apply Happ.
    + apply NoDup_subs. unfold distinct in Hd. rewrite !NoDup_cons, NoDup_app in Hd. destruct Hd as (_ & H2 & Hc & _).
      apply NoDup_cons. rewrite elem_of_reverse. split; [set_solver|by apply NoDup_rev].
    + intros m. rewrite elem_of_cons, elem_of_reverse, elem_of_app. naive_solver.
  - rewrite wraps_names. assert (NoDup (s :: (sub s <$> d_server d ++ reverse (d_client d)) ++ [replica_client s])) as H.
    { apply NoDup_cons in Hl as [H1 H2]. apply NoDup_cons. split.
      - rewrite elem_of_app, elem_of_list_singleton. intros [?|He]; [done|]. by apply (sub_ne s "client").
      - apply Happ; [done|]. intros m. rewrite !elem_of_app, elem_of_reverse. naive_solver. }
    by rewrite fmap_app, <- app_assoc in H.
Qed.
Lemma subs_owned s (ms : list string) x : x ∈ sub s <$> ms → owned s x.
Proof. intros (m & -> & _)%elem_of_list_fmap. right. eauto. Qed.
Lemma replica_owned s d x : x ∈ n_name <$> replica_nodes s d → owned s x.
Proof.
  unfold replica_nodes, client_nodes. destruct (d_rpc d); rewrite !fmap_app, wraps_names; simpl.
  - rewrite elem_of_cons, elem_of_app, elem_of_list_singleton. intros [->|[?| ->]]; [by right; eauto|by eapply subs_owned|by right; eexists].
  - rewrite wraps_names, elem_of_cons, !elem_of_app, elem_of_list_singleton.
    intros [->|[?|[?| ->]]]; [by left|by eapply subs_owned|by eapply subs_owned|by right; eexists].
Qed.
Lemma replicas_owned g n ds x : x ∈ n_name <$> replicas g n ds → ∃ i, i < n ∧ owned (replica_name g i) x.
Proof.
  intros (y & -> & Hy)%elem_of_list_fmap. unfold replicas in Hy. apply elem_concat in Hy as (l & Hy & (i & -> & Hi)%elem_of_list_fmap).
  apply elem_of_seq in Hi. exists i. split; [lia|]. eapply replica_owned, elem_of_list_fmap_1, Hy.
Qed.
Lemma replicas_nodup g n ds : (∀ i, i < n → distinct (ds i)) → NoDup (n_name <$> replicas g n ds).
Proof.
  induction n as [|n IH]; intros Hd; [constructor|]. unfold replicas. rewrite seq_S, fmap_app, concat_app, fmap_app. simpl. rewrite app_nil_r.
  apply NoDup_app. split; [apply IH; auto|]. split; [|apply replica_names_nodup; auto].
  intros x (i & Hi & Ho)%replicas_owned Ho'%replica_owned. pose proof (owned_replica _ _ _ _ Ho Ho'). lia.
Qed.
(** The balancer's own nodes and its replicas *)
Lemma lb_nodup g n d ds : distinct d → (∀ i, i < n → distinct (ds i)) →
  NoDup ((n_name <$> replicas g n ds) ++ local_names (lb_name g) d).
Proof.
  intros Hd Hds. apply NoDup_app. split; [by apply replicas_nodup|]. split; [|by apply local_nodup].
  intros x (i & Hi & Ho)%replicas_owned Hx. apply (owned_lb g i x); [done|]. unfold local_names in Hx.
  apply elem_of_cons in Hx as [->|Hx]; [by left|by eapply subs_owned].
Qed.

(** ** Calls *)
Section calls.
  Context (procs : proc → gmap string code) (entry : string → string).
  Definition has (p : proc) (ns : list node) : Prop := ∀ x, x ∈ ns → procs p !! n_name x = Some (n_code x).
  Lemma call_wraps p s u ms b l b' : has p (wraps s u ms) → call procs entry p u b l b' →
    call procs entry p (outermost s u ms) b ((Through <$> reverse ms) ++ l) b'.
  Proof.
    revert u l. induction ms as [|m ms IH]; intros u l Hh Hc; [done|]. rewrite reverse_cons, fmap_app, <- app_assoc. simpl.
    assert (outermost s u (m :: ms) = outermost s (sub s m) ms) as ->.
    { unfold outermost. destruct ms as [|m' ms']; [done|]. rewrite last_cons. destruct (last (m' :: ms')) eqn:E; [done|]. by apply last_None in E. }
    apply IH; [intros x Hx; apply Hh; by right|]. eapply call_wrap; [|done].
    by apply (Hh (Node (sub s m) (Wrap m u))); left.
  Qed.
  Lemma call_client p client s server d b l b' : has p (client_nodes client s server d) →
    has (if d_rpc d then Of s else p) (wraps s s (d_server d)) → (d_rpc d = true → entry s = server_top s d) →
    call procs entry (if d_rpc d then Of s else p) s b l b' → call procs entry p client b (modifiers d ++ l) b'.
  Proof.
    intros Hh Hs He Hc. unfold client_nodes in Hh.
    assert (∀ u, has p (wraps s u (reverse (d_client d)) ++ [Node client (Forward (outermost s u (reverse (d_client d))))]) →
      call procs entry p u b ((Through <$> reverse (d_server d)) ++ l) b' → call procs entry p client b (modifiers d ++ l) b') as Hall.
    { intros u Hu Hcu. eapply call_forward; [apply (Hu (Node client (Forward (outermost s u (reverse (d_client d)))))); set_solver|].
      unfold modifiers. rewrite fmap_app, <- app_assoc. pose proof (λ l0, call_wraps p s u (reverse (d_client d)) b l0 b') as Hw.
      setoid_rewrite reverse_involutive in Hw. apply Hw; [|done]. intros x Hx. apply Hu. set_solver. }
    destruct (d_rpc d).
    - apply (Hall (sub s "grpc_client")); [intros x Hx; apply Hh; by right|].
      eapply call_dial; [by apply (Hh (Node (sub s "grpc_client") (Dial s))); left|]. rewrite He by done. by apply call_wraps.
    - apply (Hall (server_top s d)); [intros x Hx; apply Hh; set_solver|]. by apply call_wraps.
  Qed.
  Lemma call_det p x b l1 b1 : call procs entry p x b l1 b1 → ∀ l2 b2, call procs entry p x b l2 b2 → l1 = l2 ∧ b1 = b2.
  Proof.
    induction 1 as [p x b H|p x w b l b' H _ IH|p x m w b l b' H _ IH|p x s b l b' H _ IH|p x ws b w b1 l b' H Hb Hp _ IH];
      intros l2 b2 H2; inversion H2; subst; try done; try congruence.
    - apply IH. congruence.
    - assert (m0 = m ∧ w0 = w) as [-> ->] by (split; congruence). match goal with H : call _ _ _ w _ _ _ |- _ => apply IH in H as [-> ->] end. done.
    - apply IH. congruence.
    - apply IH. by match goal with H : pick_client _ = Some (?w', ?b'') |- _ => rewrite Hp in H; injection H as <- <- end.
  Qed.
End calls.

(** ** The processes of an application *)
Lemma index_replica g n i : i < n → index_of g (replica_name g i) n = Some i.
Proof.
  intros Hi. unfold index_of. destruct (list_find _ (seq 0 n)) as [[j k]|] eqn:E.
  - apply list_find_Some in E as (Hj & Hk & _). apply lookup_seq in Hj as [-> _]. simpl in *.
    f_equal. apply (owned_replica g j i (replica_name g i)); [by left|by left].
  - apply list_find_None in E. rewrite Forall_forall in E. destruct (E i); [|done]. apply elem_of_seq. lia.
Qed.
Lemma replica_ne_lb g i : replica_name g i ≠ lb_name g.
Proof. intros H. apply (owned_lb g i (lb_name g)); [by left|by left]. Qed.
Section app.
  Context (g : string) (n : nat) (d : deployed) (ds : nat → deployed).
  Context (Hn : 0 < n) (Hd : distinct d) (Hds : ∀ i, i < n → distinct (ds i)).
  Notation procs := (processes g n d ds).
  Notation entry := (served g n d ds).
  (** The process in which the balancer is *)
  Definition home : proc := if d_rpc d then Of (lb_name g) else Consumer.
  Lemma local_consumer : d_rpc d = false →
    instances (consumer_nodes g n d ds) = instances (lb_server g n d ds ++ wraps (lb_name g) (server_top (lb_name g) d) (reverse (d_client d))).
  Proof.
    intros Hr. unfold consumer_nodes, client_nodes. rewrite Hr, app_assoc, instances_snoc. simpl.
    destruct (instances _ !! lb_name g) eqn:E; [done|]. apply eq_None_not_Some in E. destruct E. apply instances_dom.
    rewrite fmap_app, elem_of_app. left. unfold lb_server. rewrite fmap_app, elem_of_app. right. by left.
  Qed.
  Lemma lb_server_names : n_name <$> lb_server g n d ds = (n_name <$> replicas g n ds) ++ lb_name g :: (sub (lb_name g) <$> d_server d).
  Proof. unfold lb_server. rewrite fmap_app. simpl. by rewrite wraps_names. Qed.
  Lemma has_home : has procs home (lb_server g n d ds).
  Proof using Hn Hd Hds.
    intros x Hx. pose proof (lb_nodup g n d ds Hd Hds) as Hnd. unfold local_names in Hnd. rewrite fmap_app in Hnd.
    unfold home. destruct (d_rpc d) eqn:Hr; simpl.
    - rewrite decide_True by done. apply instances_elem; [|done]. rewrite lb_server_names.
      rewrite app_comm_cons, app_assoc in Hnd. by apply NoDup_app in Hnd as (? & _ & _).
    - rewrite local_consumer by done. apply instances_elem; [|apply elem_of_app; by left].
      by rewrite fmap_app, lb_server_names, wraps_names, <- app_assoc.
  Qed.
  Lemma has_replica i : i < n → has procs home (replica_nodes (replica_name g i) (ds i)).
  Proof using Hn Hd Hds.
    intros Hi x Hx. apply has_home. unfold lb_server. apply elem_of_app. left. unfold replicas. apply elem_concat.
    eexists. split; [exact Hx|]. apply elem_of_list_fmap. exists i. split; [done|]. apply elem_of_seq. lia.
  Qed.
  Lemma has_replica_server i : i < n → has procs (if d_rpc (ds i) then Of (replica_name g i) else home) (server_nodes (replica_name g i) Impl (ds i)).
  Proof using Hn Hd Hds.
    intros Hi. destruct (d_rpc (ds i)) eqn:Hr.
    - intros x Hx. simpl. rewrite decide_False by apply replica_ne_lb. rewrite index_replica by done. apply instances_elem; [|done].
      simpl. rewrite wraps_names. specialize (local_nodup (replica_name g i) (ds i) (Hds i Hi)). unfold local_names. rewrite fmap_app, app_comm_cons.
      by intros (? & _ & _)%NoDup_app.
    - intros x Hx. apply (has_replica i Hi). unfold replica_nodes, client_nodes. rewrite Hr. apply elem_of_app. by left.
  Qed.
  Lemma call_replica i b : i < n →
    call procs entry home (replica_client (replica_name g i)) b (modifiers (ds i) ++ [Reached (replica_name g i)]) b.
  Proof using Hn Hd Hds.
    intros Hi. pose proof (has_replica_server i Hi) as Hh. eapply call_client.
    - by apply has_replica.
    - intros x Hx. apply Hh. by right.
    - intros _. unfold served. rewrite decide_False by apply replica_ne_lb. by rewrite index_replica.
    - apply call_impl. by apply (Hh (Node (replica_name g i) Impl)); left.
  Qed.
  Definition clients : list string := replica_client <$> replica_names g n.
  Definition state (j : nat) : balancer string := Balancer clients (j mod n) n.
  Lemma pick_state j : pick_client (state j) = Some (replica_client (replica_name g (j mod n)), state (S j)).
  Proof using Hn Hd Hds.
    unfold pick_client, state. simpl. unfold clients, replica_names. rewrite !list_lookup_fmap, lookup_seq_lt by (apply Nat.mod_upper_bound; lia).
    simpl. do 3 f_equal. rewrite Nat.add_mod_idemp_l by lia. f_equal. lia.
  Qed.
  Lemma call_balancer j : call procs entry home (lb_name g) (state j) (way g n ds j) (state (S j)).
  Proof using Hn Hd Hds.
    eapply call_balance; [|done|apply pick_state|].
    - apply (has_home (Node (lb_name g) (balance g n))). unfold lb_server. apply elem_of_app. right. by left.
    - apply call_replica. apply Nat.mod_upper_bound. lia.
  Qed.
  Lemma consumer_call j : call procs entry Consumer (lb_name g) (state j) ((if d_rpc d then modifiers d else []) ++ way g n ds j) (state (S j)).
  Proof using Hn Hd Hds.
    pose proof (call_balancer j) as H. pose proof has_home as Hh. unfold home in *. destruct (d_rpc d) eqn:Hr; [|done].
    apply (call_client procs entry Consumer (lb_name g) (lb_name g) (lb_server g n d ds) d).
    - intros x Hx. simpl. apply instances_elem; [|done]. unfold consumer_nodes, client_nodes. rewrite Hr, !fmap_app, wraps_names. simpl.
      change (NoDup ((sub (lb_name g) <$> "grpc_client" :: reverse (d_client d)) ++ [lb_name g])). apply NoDup_app.
      unfold distinct in Hd. rewrite !NoDup_cons, NoDup_app in Hd. destruct Hd as (_ & H2 & Hc & _). split; [|split; [|apply NoDup_singleton]].
      + apply NoDup_subs, NoDup_cons. rewrite elem_of_reverse. split; [set_solver|by apply NoDup_rev].
      + intros y (m & -> & _)%elem_of_list_fmap He%elem_of_list_singleton. by apply sub_ne in He.
    - rewrite Hr. intros x Hx. apply Hh. unfold lb_server. apply elem_of_app. right. by right.
    - intros _. unfold served. by rewrite decide_True.
    - by rewrite Hr.
  Qed.
  Lemma consumer_history j ls : calls procs entry Consumer (lb_name g) (state j) ls →
    ∀ k l, ls !! k = Some l → l = (if d_rpc d then modifiers d else []) ++ way g n ds (j + k).
  Proof using Hn Hd Hds.
    revert j. induction ls as [|l0 ls IH]; intros j H k l Hk; [done|]. inversion H as [|? ? b' ? Hc Hcs]; subst.
    destruct (call_det _ _ _ _ _ _ _ Hc _ _ (consumer_call j)) as [-> ->]. destruct k as [|k]; simpl in Hk.
    - injection Hk as <-. by rewrite Nat.add_0_r.
    - rewrite Nat.add_succ_r. by apply (IH (S j) Hcs).
  Qed.
  Lemma consumer_exists k j : ∃ ls, length ls = k ∧ calls procs entry Consumer (lb_name g) (state j) ls.
  Proof using Hn Hd Hds.
    revert j. induction k as [|k IH]; intros j; [exists []; split; [done|constructor]|].
    destruct (IH (S j)) as (ls & Hl & H). exists (((if d_rpc d then modifiers d else []) ++ way g n ds j) :: ls).
    split; [simpl; by f_equal|]. econstructor; [apply consumer_call|done].
  Qed.
  Lemma new_state : new_balancer clients = state 0.
  Proof using Hn Hd Hds. unfold new_balancer, state, clients, replica_names. f_equal; [by rewrite Nat.mod_0_l by lia|]. by rewrite !fmap_length, seq_length. Qed.
End app.
