(** * C08 continued: preferred ports, the order of the search, and [Clear] *)
From Verif Require Import Ports_Model Ports_Spec Ports_Proof.
From Coq Require Import ZifyBool ZifyNat ZifyN Lia.

(** The search takes the first free candidate: everything before it is taken. *)
Lemma search_first f ports c p :
  (c < 65536)%N → search f ports c = Some p →
  p = c ∨ (is_Some (ports !! c) ∧ ∀ q, (c ≤ q < p)%N → is_Some (ports !! q)).
Proof.
  revert c. induction f as [|f IH]; intros c Hc; simpl; [done|]. destruct (ports !! c) as [x|] eqn:E.
  - intros H. right. split; [done|]. intros q Hq.
    destruct (decide (q = c)) as [->|Hne]; [done|].
    assert (next_port c < 65536)%N by (unfold next_port; lia).
    destruct (decide (c + 1 < 65536)%N) as [Hlt|Hge].
    + assert (next_port c = (c + 1)%N) as En by (unfold next_port; lia).
      destruct (IH _ H0 H) as [->|[Hs Hall]]; [lia|]. apply Hall. lia.
    + pose proof (search_range _ _ _ _ H0 H). lia.
  - intros [= ->]. by left.
Qed.

Lemma set_port_Some h a c b : is_Some (h !! b) → is_Some (set_port h a c !! b).
Proof. unfold set_port. intros [x Hx]. destruct (decide (a = b)) as [->|Hne]; [rewrite lookup_alter, Hx|rewrite lookup_alter_ne, Hx by done]; by eexists. Qed.

Lemma assign_loop_first f h ports asg h' ports' :
  assign_loop f h ports asg = Some (h', ports') → NoDup asg → (∀ b, b ∈ asg → is_Some (h !! b)) →
  (∀ b, b ∈ asg → (start_port h b < 65536)%N) →
  (∀ b, b ∉ asg → port_of h' b = port_of h b) ∧
  (∀ q, is_Some (ports' !! q) ↔ is_Some (ports !! q) ∨ ∃ b, b ∈ asg ∧ port_of h' b = q) ∧
  (∀ b, b ∈ asg → port_of h' b = start_port h b ∨
     is_Some (ports' !! start_port h b) ∧ ∀ q, (start_port h b ≤ q < port_of h' b)%N → is_Some (ports' !! q)).
Proof.
  revert h ports. induction asg as [|a asg IH]; intros h ports H Hnd Hin Hlt; simpl in H.
  { simplify_eq. split_and!; [done| |]. - intros q. split; [by left|]. intros [?|(b & Hb & _)]; [done|]. by apply elem_of_nil in Hb.
    - intros b Hb. by apply elem_of_nil in Hb. }
  apply NoDup_cons in Hnd as [Hna Hnd].
  destruct (search f ports (start_port h a)) as [c|] eqn:Es; [|done].
  assert (is_Some (h !! a)) as Ha by (apply Hin; left).
  destruct (IH _ _ H Hnd) as (Hother & Hkeys & Hall).
  { intros b Hb. apply set_port_Some, Hin. by right. }
  { intros b Hb. rewrite start_port_set. apply Hlt. by right. }
  assert (port_of h' a = c) as Hac.
  { rewrite (Hother a Hna), port_of_set, bool_decide_true; done. }
  assert (∀ q, is_Some (ports !! q) → is_Some (ports' !! q)) as Hkeep.
  { intros q Hq. apply Hkeys. left. destruct (decide (c = q)) as [->|]; [rewrite lookup_insert; by eexists|by rewrite lookup_insert_ne]. }
  split_and!.
  - intros b Hb. apply not_elem_of_cons in Hb as [Hne Hb]. rewrite (Hother b Hb), port_of_set, bool_decide_false; [done|naive_solver].
  - intros q. rewrite Hkeys. split.
    + intros [Hq|(b & Hb & Hq)]; [|right; exists b; split; [by right|done]].
      destruct (decide (c = q)) as [<-|Hne]; [right; exists a; split; [by left|done]|]. rewrite lookup_insert_ne in Hq by done. by left.
    + intros [Hq|(b & [->|Hb]%elem_of_cons & Hq)].
      * left. destruct (decide (c = q)) as [->|]; [rewrite lookup_insert; by eexists|by rewrite lookup_insert_ne].
      * left. rewrite <-Hq, Hac, lookup_insert. by eexists.
      * right. by exists b.
  - intros b Hb. apply elem_of_cons in Hb as [->|Hb].
    + rewrite Hac. destruct (search_first _ _ _ _ (Hlt a ltac:(left)) Es) as [->|[Hx Hq]]; [by left|]. right.
      split; [by apply Hkeep|]. intros q Hq'. by apply Hkeep, Hq.
    + destruct (Hall b Hb) as [H1|[H1 H2]]; rewrite start_port_set in *; [by left|]. right. split; [done|].
      intros q Hq. by apply H2.
Qed.

Lemma assign_loop_pref f h ports asg :
  0 < f → (∀ b, b ∈ asg → is_Some (h !! b)) → NoDup (start_port h <$> asg) → (∀ b, b ∈ asg → ports !! start_port h b = None) →
  ∃ h' ports', assign_loop f h ports asg = Some (h', ports') ∧ ∀ b, b ∈ asg → port_of h' b = start_port h b.
Proof.
  intros Hf. revert h ports. induction asg as [|a asg IH]; intros h ports Hin Hnd Hfree; simpl.
  { eexists _, _. split; [done|]. intros b Hb. by apply elem_of_nil in Hb. }
  apply NoDup_cons in Hnd as [Hna Hnd].
  assert (search f ports (start_port h a) = Some (start_port h a)) as ->.
  { destruct f; [lia|]. simpl. by rewrite (Hfree a ltac:(left)). }
  assert (start_port (set_port h a (start_port h a)) <$> asg = start_port h <$> asg) as Est.
  { apply list_fmap_ext. intros i b _. apply start_port_set. }
  destruct (IH (set_port h a (start_port h a)) (<[start_port h a:=a]> ports)) as (h' & ports' & E & Hp).
  - intros b Hb. apply set_port_Some, Hin. by right.
  - by rewrite Est.
  - intros b Hb. rewrite start_port_set, lookup_insert_ne; [apply Hfree; by right|]. intros Eq. apply Hna. rewrite Eq. apply elem_of_list_fmap. by exists b.
  - exists h', ports'. split; [done|]. intros b [->|Hb]%elem_of_cons.
    + assert (a ∉ asg) as Hn by (intros Ha; apply Hna, elem_of_list_fmap; by exists a).
      destruct (assign_loop_spec _ _ _ _ _ _ E) as (Hframe & _).
      { intros b' Hb'. apply set_port_Some, Hin. by right. }
      unfold port_of, deref. rewrite (Hframe a Hn). change (port_of (set_port h a (start_port h a)) a = start_port h a).
      rewrite port_of_set, bool_decide_true; [done|]. split; [done|]. apply Hin. by left.
    + rewrite (Hp b Hb). apply start_port_set.
Qed.

Lemma clear_lookup binds h b :
  clear h binds !! b = (if bool_decide (b ∈ binds) then (λ x, Bind (b_key x) (b_addr x) "" 0%N (b_pref x)) else id) <$> h !! b.
Proof.
  revert h. unfold clear. induction binds as [|a binds IH]; intros h; simpl.
  { by destruct (h !! b). }
  rewrite IH. destruct (decide (a = b)) as [->|Hne].
  - rewrite lookup_alter, (bool_decide_true (b ∈ b :: binds)) by left. destruct (h !! b); [|done]. simpl. by case_bool_decide.
  - rewrite lookup_alter_ne by done. f_equal. destruct (decide (b ∈ binds)).
    + rewrite !bool_decide_true; [done|by right|done].
    + rewrite !bool_decide_false; [done| |done]. intros [|]%elem_of_cons; congruence.
Qed.

(** C08. Every bind without a port gets its preferred port (2000 if it has none), unless another bind ends up with
    that one; then it gets the next port no other bind has: all ports in between belong to others. *)
Theorem C08_first_free_port :
  ∀ f h binds h' pre asg,
    wf_heap h → NoDup binds → (∀ b, b ∈ binds → is_Some (h !! b)) →
    assign_ports f h binds = APorts h' pre asg →
    ∀ b, b ∈ binds → port_of h b = 0%N →
      let want := if bool_decide (pref_of h b = 0%N) then 2000%N else pref_of h b in
      port_of h' b = want ∨
      (∃ c, c ∈ binds ∧ c ≠ b ∧ port_of h' c = want) ∧
      (∀ q, (want ≤ q < port_of h' b)%N → ∃ c, c ∈ binds ∧ c ≠ b ∧ port_of h' c = q).
Proof.
  intros f h binds h' pre asg Hwf Hnd Hin E b Hb H0. change (if bool_decide (pref_of h b = 0%N) then 2000%N else pref_of h b) with (start_port h b).
  cbv zeta. unfold assign_ports in E. pose proof (collect_spec h binds ∅ [] []) as Hc.
  destruct (collect h binds ∅ [] []) as [[[ports pre'] asg']|[x y]]; [|done].
  destruct Hc as (-> & -> & Hndp & _ & Hkeys & _). simpl in E.
  destruct (assign_loop f h ports (unset h binds)) as [[h1 ports1]|] eqn:El; [|done]. injection E as <- <- <-.
  assert (∀ b, port_of (set_prefs h1 binds) b = port_of h1 b) as Hp by (intros; apply set_prefs_spec).
  destruct (assign_loop_first _ _ _ _ _ _ El) as (Hother & Hkeys1 & Hall).
  { by apply NoDup_filter. }
  { intros c [_ Hc]%elem_of_list_filter. by apply Hin. }
  { intros c [_ Hc]%elem_of_list_filter. destruct (Hin c Hc) as [bb Hbb]. destruct (Hwf c bb Hbb). unfold start_port, pref_of, deref. rewrite Hbb. simpl. case_bool_decide; lia. }
  assert (∀ q, is_Some (ports1 !! q) → q ≠ port_of h1 b → ∃ c, c ∈ binds ∧ c ≠ b ∧ port_of (set_prefs h1 binds) c = q) as Hown.
  { intros q Hq Hne. apply Hkeys1 in Hq as [Hq|(c & Hc & <-)].
    - apply Hkeys in Hq as [Hq|Hq]; [by destruct Hq as [? Hq%lookup_empty_Some]|].
      apply elem_of_list_fmap in Hq as (c & -> & Hc). apply elem_of_list_filter in Hc as [Hc0 Hc].
      assert (c ∉ unset h binds) as Hcu by (intros [? _]%elem_of_list_filter; done).
      exists c. rewrite Hp, (Hother c Hcu). split_and!; [done| |done]. intros ->. done.
    - apply elem_of_list_filter in Hc as [_ Hc]. exists c. rewrite Hp. split_and!; [done| |done]. by intros ->. }
  rewrite Hp. assert (b ∈ unset h binds) as Hbu by (by apply elem_of_list_filter).
  destruct (decide (port_of h1 b = start_port h b)) as [|Hne]; [by left|].
  destruct (Hall b Hbu) as [|[H1 H2]]; [done|]. right. split; [by apply Hown|]. intros q Hq. apply Hown; [by apply H2|lia].
Qed.
Print Assumptions C08_first_free_port.

(** Preferred ports that are not contended are honoured, all of them. *)
Theorem C08_preferred_ports :
  ∀ f h binds,
    0 < f → NoDup binds → (∀ b, b ∈ binds → is_Some (h !! b)) →
    NoDup (port_of h <$> preset h binds) →
    NoDup (pref_of h <$> unset h binds) →
    (∀ b, b ∈ unset h binds → pref_of h b ≠ 0%N ∧ ∀ c, c ∈ binds → port_of h c ≠ pref_of h b) →
    ∃ h' pre asg, assign_ports f h binds = APorts h' pre asg ∧ ∀ b, b ∈ unset h binds → port_of h' b = pref_of h b.
Proof.
  intros f h binds Hf Hnd Hin Hpre Hprefs Hfree. unfold assign_ports.
  destruct (collect_ok h binds ∅ [] [] Hpre) as [[[ports pre'] asg'] E].
  { intros. by rewrite lookup_empty. }
  pose proof (collect_spec h binds ∅ [] []) as Hc. rewrite E in *. destruct Hc as (-> & -> & _ & _ & Hkeys & _). simpl.
  assert (∀ b, b ∈ unset h binds → start_port h b = pref_of h b) as Hst.
  { intros b Hb. unfold start_port. rewrite bool_decide_false; [done|]. by apply Hfree. }
  destruct (assign_loop_pref f h ports (unset h binds) Hf) as (h1 & ports1 & -> & Hp).
  - intros b [_ Hb]%elem_of_list_filter. by apply Hin.
  - rewrite (list_fmap_ext (start_port h) (pref_of h) (unset h binds)); [done|].
    intros i b Hb. by eapply Hst, elem_of_list_lookup_2.
  - intros b Hb. rewrite (Hst b Hb). apply eq_None_not_Some. intros [Hq|Hq]%Hkeys; [by destruct Hq as [? Hq%lookup_empty_Some]|].
    apply elem_of_list_fmap in Hq as (c & Eq & [_ Hc]%elem_of_list_filter). by destruct (Hfree b Hb) as [_ H]; apply (H c Hc).
  - eexists _, _, _. split; [done|]. intros b Hb. rewrite (proj1 (set_prefs_spec _ _ _)), (Hp b Hb). by apply Hst.
Qed.
Print Assumptions C08_preferred_ports.

(** Clear takes host and port away from the given binds and changes nothing else. *)
Theorem C08_clear :
  ∀ h binds b,
    (b ∈ binds → port_of (clear h binds) b = 0%N ∧ b_host (deref (clear h binds) b) = "" ∧ pref_of (clear h binds) b = pref_of h b ∧
       b_key (deref (clear h binds) b) = b_key (deref h b) ∧ b_addr (deref (clear h binds) b) = b_addr (deref h b)) ∧
    (b ∉ binds → clear h binds !! b = h !! b).
Proof.
  intros h binds b. split; intros Hb.
  - unfold port_of, pref_of, deref. rewrite clear_lookup, bool_decide_true by done. by destruct (h !! b).
  - rewrite clear_lookup, bool_decide_false by done. by destruct (h !! b).
Qed.
Print Assumptions C08_clear.

(** Ports are stable: binds that all got a port, cleared and assigned again, get the same ports again. *)
Theorem C08_clear_then_assign_again :
  ∀ f f' h binds h' pre asg,
    NoDup binds → (∀ b, b ∈ binds → is_Some (h !! b)) →
    assign_ports f h binds = APorts h' pre asg → (∀ b, b ∈ binds → port_of h' b ≠ 0%N) → 0 < f' →
    ∃ h'', assign_ports f' (clear h' binds) binds = APorts h'' [] binds ∧ ∀ b, b ∈ binds → port_of h'' b = port_of h' b.
Proof.
  intros f f' h binds h' pre asg Hnd Hin E Hnz Hf'.
  destruct (assign_ports_ok _ _ _ _ _ _ Hin E) as (_ & _ & _ & Hdist & Hpref & _ & _).
  assert (∀ b, b ∈ binds → port_of (clear h' binds) b = 0%N ∧ pref_of (clear h' binds) b = port_of h' b) as Hcl.
  { intros b Hb. destruct (C08_clear h' binds b) as [Hc _]. destruct (Hc Hb) as (? & _ & -> & _). split; [done|]. by apply Hpref. }
  assert (preset (clear h' binds) binds = []) as Epre.
  { unfold preset. apply elem_of_nil_inv. intros b [H Hb]%elem_of_list_filter. by destruct (Hcl b Hb). }
  assert (unset (clear h' binds) binds = binds) as Eun.
  { unfold unset. assert (∀ l : list nat, (∀ b, b ∈ l → b ∈ binds) → filter (λ b, port_of (clear h' binds) b = 0%N) l = l) as H; [|by apply H].
    induction l as [|a l IH]; intros Hl; [done|]. rewrite filter_cons_True by (apply Hcl, Hl; left). f_equal. apply IH. intros b Hb. apply Hl. by right. }
  assert (∀ b, b ∈ binds → is_Some (clear h' binds !! b)) as Hin'.
  { intros b Hb. destruct (clear h' binds !! b) as [x|] eqn:Ex; [done|]. exfalso. apply (Hnz b Hb).
    rewrite clear_lookup, bool_decide_true in Ex by done. unfold port_of, deref. by destruct (h' !! b). }
  destruct (C08_preferred_ports f' (clear h' binds) binds Hf' Hnd Hin') as (h'' & pre' & asg' & E' & Hp).
  - rewrite Epre. constructor.
  - rewrite Eun. apply NoDup_fmap_2_strong; [|done]. intros b c Hb Hc Heq. rewrite (proj2 (Hcl b Hb)), (proj2 (Hcl c Hc)) in Heq.
    destruct (decide (b = c)); [done|]. by destruct (Hdist b c Hb Hc).
  - rewrite Eun. intros b Hb. destruct (Hcl b Hb) as [_ ->]. split; [by apply Hnz|]. intros c Hc. rewrite (proj1 (Hcl c Hc)). apply not_eq_sym. by apply Hnz.
  - destruct (assign_ports_ok _ _ _ _ _ _ Hin' E') as (-> & -> & _). rewrite Epre, Eun in *. exists h''. split; [done|].
    intros b Hb. rewrite (Hp b Hb). by apply Hcl.
Qed.
Print Assumptions C08_clear_then_assign_again.

Definition ex_heap2 : heap := <[0 := Bind "a.bind" "a" "h" 0 2000]> (<[1 := Bind "b.bind" "b" "" 2000 0]> (<[2 := Bind "c.bind" "c" "" 0 0]> ∅)).
Example C08_stable_nonvacuous :
  match assign_ports 10 ex_heap2 [0; 1; 2] with
  | APorts h' pre asg => port_of h' <$> [0; 1; 2] = [2001; 2000; 2002]%N ∧
      port_of (clear h' [0; 1; 2]) <$> [0; 1; 2] = [0; 0; 0]%N ∧
      match assign_ports 10 (clear h' [0; 1; 2]) [0; 1; 2] with
      | APorts h'' pre asg => pre = [] ∧ port_of h'' <$> [0; 1; 2] = [2001; 2000; 2002]%N
      | _ => False
      end
  | _ => False
  end.
Proof. vm_compute. auto. Qed.
