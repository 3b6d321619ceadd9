(** C02, C18: encoding and decoding again. *)
From Verif Require Import Base BaseProofs Wire WireProofs LoopProofs Unknown UnknownProofs Value Descr
  Fields Codec DescrOk DescrProofs FieldsProofs LenProofs MergeProofs DepthProofs RoundSpec RoundProofs RoundMain
  RoundSame ExampleSchema.
Open Scope N_scope.

(** Every valid message within the nesting limit encodes, decodes again, and
    the result cannot be told apart from it ([same_msg], RoundSpec.v): same set
    fields and extensions, same values, same unknown fields.  [zeros_kept_msg]
    excludes an implicit-presence float holding the zero of the other sign than
    its default. *)
Theorem C02_round_trip t m :
  wf t -> ok_msg t m = true -> zeros_kept_msg t m = true -> (msg_depth m <= 100)%nat ->
  exists b, enc_msg t m = Ok b /\
    (N.of_nat (length b) < 2 ^ 64 ->
     exists m', msg_decode t (dm_desc m) b = Ok m' /\ same_msg t m m').
Proof.
  intros Hwf Hm Hz Hd. destruct (ok_msg_encodes t m Hwf Hm) as [Hr Hv].
  destruct (msg_encode_fine t m (proj1 Hwf) Hv Hr) as (b & l & Hb & _). exists b. split; [exact Hb|].
  intros HL. exists (norm_msg t m). split; [|apply norm_same; assumption].
  apply decode_encode_norm; assumption.
Qed.
Print Assumptions C02_round_trip.

Example C02_example :
  zeros_kept_msg ex ex_m = true /\
  exists b, enc_msg ex ex_m = Ok b /\ msg_decode ex 0 b = Ok ex_m.
Proof. split; [vm_compute; reflexivity|]. eexists. split; [vm_compute; reflexivity|]. vm_compute; reflexivity. Qed.

(** The nesting condition cannot be dropped, even for messages that were
    themselves obtained by decoding: a map entry without a value at the limit
    decodes to an empty message one level deeper, which is then written out
    explicitly and rejected by the decoder. *)
Definition deep_bytes : bytes := wrap (repeat (LMsg 7) 100) [34; 0].
Theorem C02_decoded_message_not_decodable_refuted :
  exists m b, msg_decode ex 0 deep_bytes = Ok m /\ ok_msg ex m = true /\
    enc_msg ex m = Ok b /\ msg_decode ex 0 b = Err ERecursion.
Proof. do 2 eexists. do 3 (split; [vm_compute; reflexivity|]). vm_compute; reflexivity. Qed.
Print Assumptions C02_decoded_message_not_decodable_refuted.

(** ** Floats *)

Definition float_value (v : value) : Prop :=
  match v with VF32 _ | VF64 _ => True | _ => False end.

(** A set float or double field, singular or list, reads back bit for bit;
    nothing is assumed about the bit pattern (NaNs, signed zeros, ...). *)
Theorem C18_floats_bit_exact t m b m' f n :
  wf t -> ok_msg t m = true -> (msg_depth m <= 100)%nat ->
  enc_msg t m = Ok b -> N.of_nat (length b) < 2 ^ 64 -> msg_decode t (dm_desc m) b = Ok m' ->
  find_desc t (dm_desc m) n = Some f -> fd_kind f = KFloat \/ fd_kind f = KDouble ->
  has_field t m f = true ->
  has_field t m' f = true /\ get_field_value t m' f = get_field_value t m f.
Proof.
  intros Hwf Hm Hd He HL Hdec Hf Hk Hh.
  rewrite (decode_encode_norm t Hwf m b Hm Hd He HL) in Hdec. injection Hdec as <-.
  pose proof (find_desc_ok _ _ _ _ (proj1 Hwf) Hf) as Hfo.
  rewrite <- (find_desc_number _ _ _ _ (proj1 Hwf) Hf) in Hf.
  apply ok_msg_iff in Hm. unfold has_field, get_field_value, fs_has, fs_get, fs_get_value in *.
  rewrite norm_get by apply (mo_sorted _ _ Hm). rewrite Hf.
  destruct (bt_get (fd_number f) (dm_fields m)) as [[|v|us]|] eqn:Eb; try discriminate Hh.
  rewrite Hh. pose proof (mo_slots _ _ Hm _ _ Eb) as S. cbn in S. rewrite Hf in S.
  rewrite has_norm by assumption. split; [exact Hh|].
  destruct v; try reflexivity.
  - rewrite ok_field_plain in S by reflexivity. rewrite andb_true_iff in S. destruct S as [_ S].
    rewrite ok_elem_msg in S. destruct Hk as [Hk|Hk]; rewrite Hk in S; discriminate S.
  - cbn [ok_field norm] in *. apply andb_true_iff in S. destruct S as [_ S]. f_equal.
    induction vs as [|x vs IH]; [reflexivity|]. cbn [map forallb] in *. apply andb_true_iff in S.
    destruct S as [Sx S]. clear Eb Hh. f_equal.
    + destruct x; try reflexivity; [|discriminate Sx|discriminate Sx].
      rewrite ok_elem_msg in Sx. destruct Hk as [Hk|Hk]; rewrite Hk in Sx; discriminate Sx.
    + assert (G : forall l, forallb (fun x => ok_elem t x (fd_kind f)) l = true -> map (fun x => norm t x f) l = l).
      { induction l as [|y l IHl]; [reflexivity|]. cbn [map forallb]. intros H. apply andb_true_iff in H.
        destruct H as [Hy H]. rewrite IHl by exact H. f_equal.
        destruct y; try reflexivity; [|discriminate Hy|discriminate Hy].
        rewrite ok_elem_msg in Hy. destruct Hk as [Hk|Hk]; rewrite Hk in Hy; discriminate Hy. }
      apply G, S.
  - cbn in S. destruct Hk as [Hk|Hk]; rewrite Hk in S; discriminate S.
Qed.
Print Assumptions C18_floats_bit_exact.

(** A float value of a map reads back bit for bit under its key, unless it is a
    zero and the entry's value field has implicit presence. *)
Theorem C18_map_floats_bit_exact t m b m' f n e vf kvs k v :
  wf t -> ok_msg t m = true -> (msg_depth m <= 100)%nat ->
  enc_msg t m = Ok b -> N.of_nat (length b) < 2 ^ 64 -> msg_decode t (dm_desc m) b = Ok m' ->
  find_desc t (dm_desc m) n = Some f -> kind_msg (fd_kind f) = Some e -> entry_value t e = Some vf ->
  get_field_value t m f = VMap kvs -> map_get k kvs = Some v -> float_value v ->
  (fd_presence vf = true \/ value_eqb v (fd_default_value t vf) = false) ->
  exists kvs', get_field_value t m' f = VMap kvs' /\ map_get k kvs' = Some v.
Proof.
  intros Hwf Hm Hd He HL Hdec Hf Hk Ev Hg Hkv Hv Hp.
  rewrite (decode_encode_norm t Hwf m b Hm Hd He HL) in Hdec. injection Hdec as <-.
  pose proof (find_desc_ok _ _ _ _ (proj1 Hwf) Hf) as Hfo.
  rewrite <- (find_desc_number _ _ _ _ (proj1 Hwf) Hf) in Hf.
  apply ok_msg_iff in Hm. unfold get_field_value, fs_get, fs_get_value in *.
  rewrite norm_get by apply (mo_sorted _ _ Hm). rewrite Hf.
  destruct (bt_get (fd_number f) (dm_fields m)) as [[|w|us]|] eqn:Eb; try (eauto; fail).
  subst w. pose proof (mo_slots _ _ Hm _ _ Eb) as S. cbn [ok_slot snd fst] in S. rewrite Hf in S.
  assert (Hh : fd_has t f (VMap kvs) = true).
  { unfold fd_has, is_default_for. rewrite (ok_field_map _ _ _ S). destruct kvs; [discriminate Hkv|].
    cbn. apply orb_true_r. }
  rewrite Hh. cbn [norm]. rewrite Hk, Ev. eexists. split; [reflexivity|].
  change (map_get k (map (norm_entry t vf) kvs) = Some v). rewrite map_get_entry, Hkv. cbn [option_map].
  assert (Ho : omitted t vf v = false).
  { unfold omitted, is_default_for. destruct Hp as [Hp|Hp]; rewrite Hp; [reflexivity|apply andb_false_r]. }
  rewrite Ho. destruct v; try contradiction Hv; reflexivity.
Qed.
Print Assumptions C18_map_floats_bit_exact.

(** -0.0 in a proto3 field without presence is accepted by set_field, counts as
    unset, and reads back as +0.0. *)
Theorem C18_negative_zero_refuted :
  exists m b m',
    try_set_field ex (new_msg 0) (ex_f 12) (VF64 9223372036854775808) = (None, m) /\
    get_field_value ex m (ex_f 12) = VF64 9223372036854775808 /\
    enc_msg ex m = Ok b /\ msg_decode ex 0 b = Ok m' /\
    get_field_value ex m' (ex_f 12) = VF64 0.
Proof. do 3 eexists. do 4 (split; [vm_compute; reflexivity|]). vm_compute; reflexivity. Qed.
Print Assumptions C18_negative_zero_refuted.

(** a signalling NaN and a negative zero with presence *)
Example C18_example :
  let m := DM 0 [(8, SVal (VMessage (DM 2 [(1, SVal (VF32 2147483648))]))); (12, SVal (VF64 18442240474082181121))] in
  ok_msg ex m = true /\ has_field ex m (ex_f 12) = true /\
  exists b, enc_msg ex m = Ok b /\ msg_decode ex 0 b = Ok m.
Proof. cbv zeta. split; [vm_compute; reflexivity|]. split; [vm_compute; reflexivity|].
  eexists. split; [vm_compute; reflexivity|]. vm_compute; reflexivity. Qed.
