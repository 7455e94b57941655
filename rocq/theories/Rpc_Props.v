(** * C55, C56: values sent by the generated gRPC and Thrift code; termination of the code generators *)
From Verif Require Import Rpc_Proof.
From Coq Require Import ZifyBool ZifyNat ZifyN Lia.
Set Default Proof Using "Type".

(** ** C55: what a caller passes to a remote service is what the service gets *)

(** gRPC, for the arguments or the results of a method: if code can be generated for the types and compiles, and
    the types are made of basic types, slices and structs with one field per declaration. *)
Theorem C55_grpc_values_arrive cd names fuel ts vs round32 utf8 :
  generates Grpc cd names fuel ts = true → go_code cd →
  no_pointers cd ts → no_maps cd ts → plain_fields cd ts →
  Forall2 (has_type 64 round32 cd) vs ts →
  (∀ v s, v ∈ vs → s ∈ strings_in v → utf8 s = true) →
  ∃ ws, transmit Grpc cd round32 utf8 ts vs = Delivered (Some <$> ws) ∧ Forall2 alike vs ws.
Proof.
  intros Hg Hgo Hnp Hnm Hpl HF Hs.
  destruct (transmit_arrives Grpc cd round32 utf8 Hgo names fuel ts vs Hg Hnp HF) as (ws & -> & HA).
  { apply Forall_forall. intros v Hv _. apply Forall_forall. intros s. by apply Hs. }
  assert (∃ ws', ws = Some <$> ws' ∧ Forall2 alike vs ws') as (ws' & -> & HA'); [|by exists ws'].
  clear Hg Hnp Hs. revert ws HA. induction HF as [|v t vs ts Hv HF IH]; intros ws HA.
  - inversion HA; subst. by exists [].
  - simpl in HA. apply Forall2_cons_inv_l in HA as (w & ws1 & Ha & HA & ->). cbn [fst snd] in Ha.
    destruct (arrives_alike _ _ cd Hgo v t w Hv) as (w' & -> & Hal); [|done|].
    + split; [intros k x; apply Hnm; left|]. intros u ds d. apply (Hpl t). left.
    + destruct (IH) with ws1 as (ws' & -> & HA'); [intros t0 k x Ht; apply Hnm; by right|intros t0 u ds d Ht; apply Hpl; by right|done|].
      exists (w' :: ws'). split; [done|]. by constructor.
Qed.

(** Thrift: the same, for strings of any bytes but only for ints that fit into 32 bits. *)
Theorem C55_thrift_values_arrive cd names fuel ts vs round32 utf8 :
  generates Thrift cd names fuel ts = true → go_code cd →
  no_pointers cd ts → no_maps cd ts → plain_fields cd ts →
  Forall2 (has_type 32 round32 cd) vs ts →
  ∃ ws, transmit Thrift cd round32 utf8 ts vs = Delivered (Some <$> ws) ∧ Forall2 alike vs ws.
Proof.
  intros Hg Hgo Hnp Hnm Hpl HF.
  destruct (transmit_arrives Thrift cd round32 utf8 Hgo names fuel ts vs Hg Hnp HF) as (ws & -> & HA).
  { apply Forall_forall. intros v Hv E. done. }
  assert (∃ ws', ws = Some <$> ws' ∧ Forall2 alike vs ws') as (ws' & -> & HA'); [|by exists ws'].
  clear Hg Hnp. revert ws HA. induction HF as [|v t vs ts Hv HF IH]; intros ws HA.
  - inversion HA; subst. by exists [].
  - simpl in HA. apply Forall2_cons_inv_l in HA as (w & ws1 & Ha & HA & ->). cbn [fst snd] in Ha.
    destruct (arrives_alike _ _ cd Hgo v t w Hv) as (w' & -> & Hal); [|done|].
    + split; [intros k x; apply Hnm; left|]. intros u ds d. apply (Hpl t). left.
    + destruct (IH) with ws1 as (ws' & -> & HA'); [intros t0 k x Ht; apply Hnm; by right|intros t0 u ds d Ht; apply Hpl; by right|done|].
      exists (w' :: ws'). split; [done|]. by constructor.
Qed.

(** With maps and with structs of any kind, but no pointers: every value is delivered; what gets lost is
    exactly what [arrives] says. *)
Theorem C55_what_arrives p cd names fuel ts vs round32 utf8 :
  generates p cd names fuel ts = true → go_code cd → no_pointers cd ts →
  Forall2 (has_type (match p with Grpc => 64 | Thrift => 32 end) round32 cd) vs ts →
  (p = Grpc → ∀ v s, v ∈ vs → s ∈ strings_in v → utf8 s = true) →
  ∃ ws, transmit p cd round32 utf8 ts vs = Delivered ws ∧ Forall2 (λ (vt : gval * ty) w, arrives cd vt.2 vt.1 w) (zip vs ts) ws.
Proof.
  intros Hg Hgo Hnp HF Hs. eapply transmit_arrives; [done..|].
  apply Forall_forall. intros v Hv E. apply Forall_forall. intros s. by apply Hs.
Qed.

(** A map never arrives: the service gets a nil or empty map, whatever was sent. *)
Theorem C55_maps_never_arrive p cd names fuel ts vs round32 utf8 i k t :
  generates p cd names fuel ts = true → go_code cd → no_pointers cd ts →
  Forall2 (has_type (match p with Grpc => 64 | Thrift => 32 end) round32 cd) vs ts →
  (p = Grpc → ∀ v s, v ∈ vs → s ∈ strings_in v → utf8 s = true) →
  ts !! i = Some (TMap k t) →
  ∃ ws w, transmit p cd round32 utf8 ts vs = Delivered ws ∧ ws !! i = Some w ∧ (w = None ∨ w = Some (VM (Some []))).
Proof.
  intros Hg Hgo Hnp HF Hs Hi. destruct (C55_what_arrives _ _ _ _ _ _ _ _ Hg Hgo Hnp HF Hs) as (ws & E & HA).
  destruct (Forall2_lookup_r _ _ _ _ _ HF Hi) as (v & Hv & _).
  assert (zip vs ts !! i = Some (v, TMap k t)) as Hz by (apply lookup_zip_with_Some; eauto).
  destruct (Forall2_lookup_l _ _ _ _ _ HA Hz) as (w & Hw & Ha). exists ws, w. split_and!; [done..|]. simpl in Ha.
  by inversion Ha.
Qed.

(** A method that takes (or returns) a pointer to a struct, or a struct that holds one in a field, can never be
    called: the caller or the service crashes, for every value. *)
Theorem C55_pointers_crash p cd names fuel ts vs round32 utf8 t :
  generates p cd names fuel ts = true → go_code cd →
  Forall2 (has_type (match p with Grpc => 64 | Thrift => 32 end) round32 cd) vs ts →
  (p = Grpc → ∀ v s, v ∈ vs → s ∈ strings_in v → utf8 s = true) →
  t ∈ ts → holds_pointer cd t →
  transmit p cd round32 utf8 ts vs = SenderPanics ∨ transmit p cd round32 utf8 ts vs = ReceiverPanics.
Proof.
  intros Hg Hgo HF Hs Ht Hp.
  destruct (transmit_pointers p cd round32 utf8 Hgo names fuel ts vs Hg HF) as [(ws & _ & H)|H]; [|by destruct (H t Ht)|done].
  apply Forall_forall. intros v Hv E. apply Forall_forall. intros s. by apply Hs.
Qed.

(** Whatever the types: values are delivered, or the caller or the service crashes. *)
Theorem C55_delivered_or_crash p cd names fuel ts vs round32 utf8 :
  generates p cd names fuel ts = true → go_code cd →
  Forall2 (has_type (match p with Grpc => 64 | Thrift => 32 end) round32 cd) vs ts →
  (p = Grpc → ∀ v s, v ∈ vs → s ∈ strings_in v → utf8 s = true) →
  (∃ ws, transmit p cd round32 utf8 ts vs = Delivered ws) ∨
  transmit p cd round32 utf8 ts vs = SenderPanics ∨ transmit p cd round32 utf8 ts vs = ReceiverPanics.
Proof.
  intros Hg Hgo HF Hs.
  destruct (transmit_pointers p cd round32 utf8 Hgo names fuel ts vs Hg HF) as [(ws & E & _)|H]; [|left; by exists ws|by right].
  apply Forall_forall. intros v Hv E. apply Forall_forall. intros s. by apply Hs.
Qed.

(** Thrift cuts an int down to 32 bits: exactly the ints that fit arrive. *)
Theorem C55_thrift_int_truncated cd round32 utf8 z :
  signed 64 z →
  ∃ z', transmit Thrift cd round32 utf8 [TBasic BInt] [VB (VInt z)] = Delivered [Some (VB (VInt z'))] ∧
    signed 32 z' ∧ (z' mod 2 ^ 32 = z mod 2 ^ 32)%Z ∧ (z' = z ↔ signed 32 z).
Proof.
  intros Hz. exists (wrap_s 64 (wrap_s 32 z)). split; [done|].
  assert (signed 32 (wrap_s 32 z)) as Hs.
  { unfold signed, wrap_s. change (2 ^ (32 - 1))%Z with 2147483648%Z. change (2 ^ 32)%Z with 4294967296%Z.
    pose proof (Z.mod_pos_bound (z + 2147483648) 4294967296). lia. }
  assert (wrap_s 64 (wrap_s 32 z) = wrap_s 32 z) as -> by (apply wrap_s_id; [lia|]; eapply signed_le; [|exact Hs]; lia).
  split_and!; [done| |].
  - unfold wrap_s. change (2 ^ (32 - 1))%Z with 2147483648%Z. change (2 ^ 32)%Z with 4294967296%Z.
    rewrite Zminus_mod, Z.mod_mod by lia. rewrite <-Zminus_mod. f_equal. lia.
  - split; [by intros <-|]. intros H. by apply wrap_s_id.
Qed.

(** A struct with [A, B int]: B never arrives; it is zero at the service. *)
Definition bad_code : code := {[ ("p", "T") := [Fdecl ["A"; "B"] (TBasic BInt)]; ("p", "E") := [Fdecl [] (TUser ("p", "S")); Fdecl ["X"] (TBasic BInt)];
                                 ("p", "S") := [Fdecl ["Y"] (TBasic BInt)] ]}.
Lemma bad_go : go_code bad_code.
Proof.
  intros u ds H. unfold bad_code in H. repeat (apply lookup_insert_Some in H as [[<- <-]|[_ H]]; [apply (bool_decide_unpack _); vm_compute; exact I|]).
  apply lookup_singleton_Some in H as [<- <-]. apply (bool_decide_unpack _). vm_compute. exact I.
Qed.
Theorem C55_second_name_lost_refuted :
  ¬ (∀ p cd names fuel ts vs round32 utf8, generates p cd names fuel ts = true → go_code cd → no_pointers cd ts → no_maps cd ts →
       Forall2 (has_type 32 round32 cd) vs ts → (∀ s, utf8 s = true) →
       ∃ ws, transmit p cd round32 utf8 ts vs = Delivered (Some <$> ws) ∧ Forall2 alike vs ws).
Proof.
  intros H. set (v := VS [("A", VB (VInt 1)); ("B", VB (VInt 2))]).
  assert (∀ t', uses bad_code (TUser ("p", "T")) t' → t' = TUser ("p", "T") ∨ t' = TBasic BInt) as Hu.
  { intros t' Hu. inversion Hu as [| | | | |u ds n t t'' Hd Hin Hu' E1 E2]; subst; [by left|]. vm_compute in Hd. simplify_eq.
    vm_compute in Hin. right. apply elem_of_cons in Hin as [[= -> ->]|[[= -> ->]|Hin]%elem_of_cons]; [by inversion Hu'..|set_solver]. }
  destruct (H Grpc bad_code (λ _ _, true) 5 [TUser ("p", "T")] [v] id (λ _, true)) as (ws & E & HA).
  - vm_compute. reflexivity.
  - exact bad_go.
  - intros t t' ->%elem_of_list_singleton Hx. by destruct (Hu _ Hx).
  - intros t k x ->%elem_of_list_singleton Hx. by destruct (Hu _ Hx).
  - constructor; [|constructor]. eapply ht_struct; [vm_compute; reflexivity|]. vm_compute.
    repeat constructor; done.
  - done.
  - assert (ws = [VS [("A", VB (VInt 1))]]) as ->.
    { vm_compute in E. destruct ws as [|w [|]]; try done. simpl in E. inversion E; subst. done. }
    apply Forall2_cons in HA as [HA _]. inversion HA as [|fs gs H1 H2 E1 E2|]; subst.
    destruct (H1 "B" (VB (VInt 2))) as (w & Hw & _); [done|]. done.
Qed.
(** Embedded fields do not arrive either. *)
Theorem C55_embedded_field_lost :
  transmit Grpc bad_code id (λ _, true) [TUser ("p", "E")] [VS [("S", VS [("Y", VB (VInt 7))]); ("X", VB (VInt 8))]]
    = Delivered [Some (VS [("X", VB (VInt 8))])] ∧
  transmit Thrift bad_code id (λ _, true) [TUser ("p", "E")] [VS [("S", VS [("Y", VB (VInt 7))]); ("X", VB (VInt 8))]]
    = Delivered [Some (VS [("X", VB (VInt 8))])] ∧
  generates Grpc bad_code (λ _ _, true) 5 [TUser ("p", "E")] = true ∧ generates Thrift bad_code (λ _ _, true) 5 [TUser ("p", "E")] = true.
Proof. vm_compute. done. Qed.

(** Non-vacuity: orders with items, in a struct that also refers to itself through a slice. *)
Definition shop : code := {[ ("shop", "Item") := [Fdecl ["Name"] (TBasic BString); Fdecl ["Qty"] (TBasic BInt); Fdecl ["Parts"] (TSlice (TUser ("shop", "Item")))];
                             ("shop", "Order") := [Fdecl ["Items"] (TSlice (TUser ("shop", "Item"))); Fdecl ["Blob"] (TSlice (TBasic BByte))];
                             ("shop", "Ref") := [Fdecl ["To"] (TPtr (TUser ("shop", "Order")))];
                             ("shop", "Tags") := [Fdecl ["M"] (TMap (TBasic BString) (TBasic BBool))] ]}.
Definition an_item : gval := VS [("Name", VB (VStr "bolt")); ("Qty", VB (VInt (-3))); ("Parts", VL (Some [VS [("Name", VB (VStr "thread")); ("Qty", VB (VInt 1)); ("Parts", VL None)]]))].
Example C55_nonvacuous :
  generates Grpc shop (λ _ _, true) 20 [TUser ("shop", "Order"); TBasic BFloat32] = true ∧
  transmit Grpc shop id (λ _, true) [TUser ("shop", "Order"); TBasic BFloat32] [VS [("Items", VL (Some [an_item])); ("Blob", VL (Some [VB (VInt 255)]))]; VB (VFloat 9)]
    = Delivered [Some (VS [("Items", VL (Some [VS [("Name", VB (VStr "bolt")); ("Qty", VB (VInt (-3))); ("Parts", VL (Some [VS [("Name", VB (VStr "thread")); ("Qty", VB (VInt 1)); ("Parts", VL (Some []))]]))]])); ("Blob", VL (Some [VB (VInt 255)]))]); Some (VB (VFloat 9))] ∧
  (* []byte is refused by the Thrift plugin, the rest is not *)
  generates Thrift shop (λ _ _, true) 20 [TUser ("shop", "Order")] = false ∧
  generates Thrift shop (λ _ _, true) 20 [TUser ("shop", "Item"); TBasic BUint64] = true ∧
  transmit Thrift shop id (λ _, false) [TUser ("shop", "Item"); TBasic BUint64] [an_item; VB (VInt (2 ^ 64 - 1))]
    = Delivered [Some (VS [("Name", VB (VStr "bolt")); ("Qty", VB (VInt (-3))); ("Parts", VL (Some [VS [("Name", VB (VStr "thread")); ("Qty", VB (VInt 1)); ("Parts", VL (Some []))]]))]); Some (VB (VInt (2 ^ 64 - 1)))] ∧
  (* pointers and maps *)
  generates Grpc shop (λ _ _, true) 20 [TUser ("shop", "Ref"); TUser ("shop", "Tags")] = true ∧
  holds_pointer shop (TUser ("shop", "Ref")) ∧
  transmit Grpc shop id (λ _, true) [TUser ("shop", "Ref")] [VS [("To", VP None)]] = SenderPanics ∧
  transmit Grpc shop id (λ _, true) [TUser ("shop", "Ref")] [VS [("To", VP (Some (VS [("Items", VL None); ("Blob", VL None)])))]] = ReceiverPanics ∧
  transmit Grpc shop id (λ _, true) [TUser ("shop", "Tags")] [VS [("M", VM (Some [(VStr "a", VB (VBool true))]))]] = Delivered [Some (VS [])].
Proof.
  split_and!; try (vm_compute; reflexivity).
  eapply hp_field; [vm_compute; reflexivity|left|]. eapply hp_pointer; [vm_compute; reflexivity|left].
Qed.
Lemma shop_go : go_code shop.
Proof.
  intros u ds H. unfold shop in H. repeat (apply lookup_insert_Some in H as [[<- <-]|[_ H]]; [apply (bool_decide_unpack _); vm_compute; exact I|]).
  apply lookup_singleton_Some in H as [<- <-]. apply (bool_decide_unpack _). vm_compute. exact I.
Qed.
Example C55_item_has_type : has_type 32 id shop an_item (TUser ("shop", "Item")).
Proof.
  eapply ht_struct; [vm_compute; reflexivity|]. constructor; [split; [done|by constructor]|].
  constructor; [split; [done|constructor; unfold basic_value, signed; lia]|]. constructor; [|constructor]. split; [done|].
  apply ht_slice. constructor; [|constructor]. eapply ht_struct; [vm_compute; reflexivity|].
  constructor; [split; [done|by constructor]|]. constructor; [split; [done|constructor; unfold basic_value, signed; lia]|].
  constructor; [|constructor]. split; [done|]. apply ht_nil_slice.
Qed.

(** ** C56: code generation for remote calls ends, and covers the types that are used *)
Theorem C56_generation_terminates p cd ts st : ∃ fuel r, ∀ fuel', fuel ≤ fuel' → make_fields p cd fuel' st ts = Some r.
Proof. apply make_fields_terminates. Qed.
(** Messages are made for structs that are used, and for all of those (if the fields are plain). *)
Theorem C56_messages_for_used_structs p cd fuel ts st is :
  make_fields p cd fuel ∅ ts = Some (Some (st, is)) →
  (∀ u, u ∈ st → ∃ t, t ∈ ts ∧ uses cd t (TUser u)) ∧
  (plain_fields cd ts → ∀ t u, t ∈ ts → uses cd t (TUser u) → u ∈ st).
Proof.
  intros H. split.
  - intros u Hu. destruct (make_fields_sound _ _ _ _ _ _ _ H u Hu) as [|]; [set_solver|done].
  - intros Hpl t u. by eapply make_fields_complete.
Qed.
Example C56_nonvacuous :
  match make_fields Grpc shop 20 ∅ [TUser ("shop", "Order")] with Some (Some (st, _)) => elements st | _ => [] end ≡ₚ [("shop", "Order"); ("shop", "Item")] ∧
  make_fields Grpc shop 1 ∅ [TUser ("shop", "Order")] = None ∧ make_fields Grpc shop 20 ∅ [TUser ("shop", "None")] = Some None.
Proof.
  split_and!; [|vm_compute; reflexivity..]. apply (bool_decide_unpack _). vm_compute. exact I.
Qed.

Print Assumptions C55_grpc_values_arrive.
Print Assumptions C55_thrift_values_arrive.
Print Assumptions C55_what_arrives.
Print Assumptions C55_maps_never_arrive.
Print Assumptions C55_pointers_crash.
Print Assumptions C55_delivered_or_crash.
Print Assumptions C55_thrift_int_truncated.
Print Assumptions C55_second_name_lost_refuted.
Print Assumptions C55_embedded_field_lost.
Print Assumptions C56_generation_terminates.
Print Assumptions C56_messages_for_used_structs.
