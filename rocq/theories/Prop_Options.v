(** C31: option messages keep the bytes they were decoded from. *)
From Verif Require Import Base BaseProofs Wire WireProofs LoopProofs Unknown UnknownProofs ExtendProofs
  RestrictProofs EntryProofs Options.
Open Scope N_scope.

(** ** Specification *)

(** One record of a message: the bytes of its key, what they say, its body. *)
Record wrec := WRec { r_key : bytes; r_num : N; r_wt : wt; r_body : bytes }.
(** The key bytes are a whole key, and the body is exactly what protobuf's rule
    for skipping a field of this wire type passes over. *)
Definition wrec_ok (ctx : nat) (r : wrec) : Prop :=
  decode_key (r_key r) = Ok (r_num r, r_wt r, []) /\
  skip_field ctx (r_wt r) (r_num r) (r_body r) = Ok [].
(** The record as it was read, and with its key in the shortest form. *)
Definition wrec_raw (r : wrec) : bytes := r_key r ++ r_body r.
Definition wrec_short (r : wrec) : bytes := encode_key (r_num r) (r_wt r) ++ r_body r.
Definition raws (rs : list wrec) : bytes := flat_map wrec_raw rs.
Definition shorts (rs : list wrec) : bytes := flat_map wrec_short rs.
(** A byte string all of whose top-level keys are in the shortest form. *)
Definition short_keys (ctx : nat) (b : bytes) : Prop :=
  exists rs, Forall (wrec_ok ctx) rs /\ b = raws rs /\ Forall (fun r => wrec_raw r = wrec_short r) rs.
(** The typed value is fed the body of every record in turn. *)
Inductive feeds {T} (field : nat -> T -> N -> wt -> bytes -> dres T) (ctx : nat) : T -> list wrec -> T -> Prop :=
| fd_nil v : feeds field ctx v [] v
| fd_cons v r v1 rest rs v2 :
    field ctx v (r_num r) (r_wt r) (r_body r) = DOk v1 rest ->
    feeds field ctx v1 rs v2 -> feeds field ctx v (r :: rs) v2.

(** ** Lemmas *)
Lemma firstn_sub {A} (p r : list A) : firstn (length (p ++ r) - length r) (p ++ r) = p.
Proof.
  rewrite app_length. replace (length p + length r - length r)%nat with (length p) by lia.
  rewrite firstn_app, firstn_all, Nat.sub_diag. cbn [firstn]. apply app_nil_r.
Qed.

Lemma skip_field_self ctx w n b r : skip_field ctx w n b = Ok r ->
  exists p, b = p ++ r /\ skip_field ctx w n p = Ok [].
Proof.
  intros H. pose proof (skip_field_ext [] ctx w n b) as K. rewrite H in K. destruct K as [[p ->] _].
  exists p. split; [reflexivity|]. pose proof (skip_field_rev r ctx w n p) as K. rewrite H in K.
  apply K. reflexivity.
Qed.
Lemma decode_key_self b n w r : decode_key b = Ok (n, w, r) ->
  exists p, b = p ++ r /\ decode_key p = Ok (n, w, []).
Proof.
  intros H. destruct (decode_key_suffix _ _ _ _ H) as [p ->].
  exists p. split; [reflexivity|]. pose proof (decode_key_rev r p) as K. rewrite H in K.
  apply K. reflexivity.
Qed.
Lemma skip_field_app ctx w n p r : skip_field ctx w n p = Ok [] -> skip_field ctx w n (p ++ r) = Ok r.
Proof. intros H. pose proof (skip_field_ext r ctx w n p) as K. rewrite H in K. apply K. Qed.

Lemma raws_unique ctx : forall rs1 rs2, Forall (wrec_ok ctx) rs1 -> Forall (wrec_ok ctx) rs2 ->
  raws rs1 = raws rs2 -> rs1 = rs2.
Proof.
  assert (Hne : forall r rs, wrec_ok ctx r -> raws (r :: rs) <> []).
  { intros r rs [Hk _] H. cbn [raws flat_map] in H. unfold wrec_raw in H.
    destruct (decode_key_split _ _ _ _ Hk) as [p [Hp Hl]]. rewrite app_nil_r in Hp.
    apply app_eq_nil in H. destruct H as [H _]. apply app_eq_nil in H. destruct H as [H _].
    rewrite H in Hp. subst p. cbn in Hl. lia. }
  induction rs1 as [|r1 rs1 IH]; intros [|r2 rs2] H1 H2 He.
  - reflexivity.
  - exfalso. apply (Hne r2 rs2); [inversion H2; assumption|]. symmetry; exact He.
  - exfalso. apply (Hne r1 rs1); [inversion H1; assumption|]. exact He.
  - inversion H1 as [|? ? K1 F1]; subst. inversion H2 as [|? ? K2 F2]; subst.
    change ((r_key r1 ++ r_body r1) ++ raws rs1 = (r_key r2 ++ r_body r2) ++ raws rs2) in He.
    rewrite <- !app_assoc in He.
    destruct r1 as [k1 n1 w1 b1], r2 as [k2 n2 w2 b2]. destruct K1 as [Ka Kb], K2 as [Kc Kd].
    cbn [r_key r_num r_wt r_body] in *.
    pose proof (decode_key_app _ _ _ _ (b1 ++ raws rs1) Ka) as Ea.
    pose proof (decode_key_app _ _ _ _ (b2 ++ raws rs2) Kc) as Ec.
    rewrite He, Ec in Ea. cbn [app] in Ea. injection Ea as <- <- Er.
    assert (k1 = k2) as <-.
    { rewrite <- Er in He. apply app_inv_tail in He. exact He. }
    apply (skip_field_app _ _ _ _ (raws rs1)) in Kb. apply (skip_field_app _ _ _ _ (raws rs2)) in Kd.
    rewrite Er, Kb in Kd. injection Kd as Kd. rewrite <- Kd in Er. apply app_inv_tail in Er. subst b2.
    f_equal. apply IH; assumption.
Qed.

Section Facts.
  Context {T : Type} (field : nat -> T -> N -> wt -> bytes -> dres T).

  Lemma opt_field_ok ctx o n w b o' r :
    opt_merge_field field ctx o n w b = DOk o' r ->
    exists body, b = body ++ r /\ skip_field ctx w n body = Ok [] /\
      o_encoded o' = o_encoded o ++ encode_key n w ++ body /\
      exists rest, field ctx (o_value o) n w body = DOk (o_value o') rest.
  Proof.
    unfold opt_merge_field. intros H. destruct (skip_field ctx w n b) as [r0| | |] eqn:E; try discriminate H.
    destruct (skip_field_self _ _ _ _ _ E) as (p & -> & Es). rewrite firstn_sub in H.
    destruct (field ctx (o_value o) n w p) as [v rest| | |] eqn:F; try discriminate H.
    injection H as <- <-. exists p. cbn [o_encoded o_value]. repeat split; eauto.
    rewrite app_assoc. reflexivity.
  Qed.

  Lemma stream_kept ctx k : forall o b o' r,
    stream_loop k (opt_merge_field field ctx) o b = DOk o' r ->
    exists rs, Forall (wrec_ok ctx) rs /\ b = raws rs /\ o_encoded o' = o_encoded o ++ shorts rs /\
      feeds field ctx (o_value o) rs (o_value o').
  Proof.
    assert (Hb : forall o : options T, exists rs, Forall (wrec_ok ctx) rs /\ [] = raws rs /\
              o_encoded o = o_encoded o ++ shorts rs /\ feeds field ctx (o_value o) rs (o_value o)).
    { intros o. exists []. cbn. rewrite app_nil_r. repeat split; constructor. }
    induction k as [|k IH]; intros o b o' r H.
    - destruct b; [|discriminate H]. injection H as <- <-. apply Hb.
    - destruct b as [|x b]; [injection H as <- <-; apply Hb|].
      rewrite stream_loop_unfold in H by discriminate.
      destruct (decode_key (x :: b)) as [[[n w] r0]| | |] eqn:Ek; try discriminate H.
      destruct (opt_merge_field field ctx o n w r0) as [o1 r1| | |] eqn:E; try discriminate H.
      apply opt_field_ok in E. destruct E as (body & -> & Es & En & rest & Ev).
      destruct (IH _ _ _ _ H) as (rs & Hc & -> & He & Hf).
      destruct (decode_key_self _ _ _ _ Ek) as (key & Hk & Hk'). rewrite Hk in *.
      exists (WRec key n w body :: rs). split; [constructor; [split; assumption|exact Hc]|].
      split; [cbn [raws flat_map]; unfold wrec_raw; cbn; rewrite <- app_assoc; reflexivity|].
      split; [rewrite He, En; cbn [shorts flat_map]; unfold wrec_short; cbn; rewrite <- !app_assoc; reflexivity|].
      econstructor; [exact Ev|exact Hf].
  Qed.

  (** The same for a loop that stops before the end of the buffer. *)
  Lemma loop_kept ctx limit k : forall o b o' r,
    loop_until k (keyed_step (opt_merge_field field ctx)) limit o b = DOk o' r ->
    exists rs, Forall (wrec_ok ctx) rs /\ b = raws rs ++ r /\ length r = limit /\
      o_encoded o' = o_encoded o ++ shorts rs /\ feeds field ctx (o_value o) rs (o_value o').
  Proof.
    assert (Hb : forall (o : options T) b, length b = limit -> exists rs, Forall (wrec_ok ctx) rs /\ b = raws rs ++ b /\
              length b = limit /\
              o_encoded o = o_encoded o ++ shorts rs /\ feeds field ctx (o_value o) rs (o_value o)).
    { intros o b Hl. exists []. cbn. rewrite app_nil_r. repeat split; try constructor. exact Hl. }
    induction k as [|k IH]; intros o b o' r H; cbn [loop_until] in H.
    - destruct (length b <=? limit)%nat eqn:E1; [|discriminate H].
      destruct (length b =? limit)%nat eqn:E2; [|discriminate H]. injection H as <- <-.
      apply Hb. apply Nat.eqb_eq, E2.
    - destruct (length b <=? limit)%nat eqn:E1.
      { destruct (length b =? limit)%nat eqn:E2; [|discriminate H]. injection H as <- <-.
        apply Hb. apply Nat.eqb_eq, E2. }
      unfold keyed_step at 1 in H.
      destruct (decode_key b) as [[[n w] r0]| | |] eqn:Ek; try discriminate H.
      destruct (opt_merge_field field ctx o n w r0) as [o1 r1| | |] eqn:E; try discriminate H.
      apply opt_field_ok in E. destruct E as (body & -> & Es & En & rest & Ev).
      destruct (IH _ _ _ _ H) as (rs & Hc & -> & Hl & He & Hf).
      destruct (decode_key_self _ _ _ _ Ek) as (key & Hk & Hk'). rewrite Hk in *.
      exists (WRec key n w body :: rs). split; [constructor; [split; assumption|exact Hc]|].
      split; [cbn [raws flat_map]; unfold wrec_raw; cbn; rewrite <- !app_assoc; reflexivity|].
      split; [exact Hl|].
      split; [rewrite He, En; cbn [shorts flat_map]; unfold wrec_short; cbn; rewrite <- !app_assoc; reflexivity|].
      econstructor; [exact Ev|exact Hf].
  Qed.

  Lemma embedded_kept ctx o b rest o' r : N.of_nat (length b) < two64 ->
    opt_merge_embedded field ctx o (write_delimited b ++ rest) = DOk o' r ->
    r = rest /\ exists rs, Forall (wrec_ok ctx) rs /\ b = raws rs /\ o_encoded o' = o_encoded o ++ shorts rs /\
      feeds field ctx (o_value o) rs (o_value o').
  Proof.
    unfold opt_merge_embedded, merge_loop, write_delimited. intros Hl H. rewrite <- app_assoc in H.
    rewrite decode_encode_varint in H by exact Hl.
    destruct (N.of_nat (length (b ++ rest)) <? N.of_nat (length b)); [discriminate H|].
    apply loop_kept in H. destruct H as (rs & H1 & H2 & H3 & H4 & H5).
    rewrite app_length in H3. replace (length b + length rest - N.to_nat (N.of_nat (length b)))%nat
      with (length rest) in H3 by lia.
    assert (b = raws rs /\ rest = r) as [-> ->].
    { assert (length b = length (raws rs)) by (apply (f_equal (@length N)) in H2; rewrite !app_length in H2; lia).
      clear - H2 H. revert b H2 H. induction (raws rs) as [|x l IH]; intros [|y b] H2 H; try discriminate H.
      - split; [reflexivity|exact H2].
      - cbn in H2. injection H2 as <- H2. injection H as H. destruct (IH b H2 H) as [-> ->]. auto. }
    split; [reflexivity|]. exists rs. auto.
  Qed.
End Facts.

Lemma short_same ctx rs : Forall (wrec_ok ctx) rs -> short_keys ctx (raws rs) -> shorts rs = raws rs.
Proof.
  intros H1 (rs2 & H2 & He & Hs). apply (raws_unique ctx _ _ H1 H2) in He. subst rs2.
  clear H1 H2. induction Hs as [|r rs Hr _ IH]; [reflexivity|]. cbn [shorts raws flat_map].
  unfold shorts, raws in IH. rewrite IH, Hr. reflexivity.
Qed.

(** ** The theorems *)

(** Whatever the option type [T] makes of the fields, and whatever the buffer
    holds: if decoding succeeds, re-encoding writes every record that was read,
    in order, with its body bytes untouched and its key in the shortest form;
    the length it announces is the length it writes; and the typed value has
    been fed exactly these bodies. *)
Theorem C31_records_kept {T} (field : nat -> T -> N -> wt -> bytes -> dres T) dflt ctx b o r :
  opt_merge field ctx (opt_default dflt) b = DOk o r ->
  exists rs, Forall (wrec_ok ctx) rs /\ b = raws rs /\ opt_encode o = shorts rs /\
    opt_len o = N.of_nat (length (opt_encode o)) /\
    feeds field ctx dflt rs (opt_to_prost o).
Proof.
  intros H. apply stream_kept in H. destruct H as (rs & H1 & H2 & H3 & H4).
  exists rs. repeat split; assumption.
Qed.

(** So the bytes themselves are preserved whenever the keys are in the
    shortest form, as every protobuf writer makes them. *)
Theorem C31_bytes_kept {T} (field : nat -> T -> N -> wt -> bytes -> dres T) dflt ctx b o r :
  short_keys ctx b ->
  opt_merge field ctx (opt_default dflt) b = DOk o r ->
  opt_encode o = b.
Proof.
  intros Hs H. apply stream_kept in H. destruct H as (rs & H1 & -> & H3 & _).
  cbn [opt_default o_encoded app] in H3. unfold opt_encode. rewrite H3. apply (short_same ctx); assumption.
Qed.

(** Inside a descriptor message: the options field may occur several times; the
    bytes of the occurrences are concatenated, and nothing after the field is
    touched. *)
Theorem C31_embedded {T} (field : nat -> T -> N -> wt -> bytes -> dres T) ctx (o : options T) b rest o' r :
  N.of_nat (length b) < two64 ->
  opt_merge_embedded field ctx o (write_delimited b ++ rest) = DOk o' r ->
  r = rest /\
  (exists rs, Forall (wrec_ok ctx) rs /\ b = raws rs /\ opt_encode o' = opt_encode o ++ shorts rs) /\
  (short_keys ctx b -> opt_encode o' = opt_encode o ++ b) /\
  (short_keys ctx b -> opt_encode o = [] -> opt_encode_embedded o' = write_delimited b).
Proof.
  intros Hl H. apply embedded_kept in H; [|exact Hl]. destruct H as (-> & rs & H1 & -> & H3 & _).
  split; [reflexivity|]. split; [exists rs; auto|].
  assert (K : short_keys ctx (raws rs) -> opt_encode o' = opt_encode o ++ raws rs).
  { intros Hs. unfold opt_encode. rewrite H3, (short_same ctx rs H1 Hs). reflexivity. }
  split; [exact K|]. intros Hs He. specialize (K Hs). rewrite He in K. cbn [app] in K.
  unfold opt_encode_embedded, write_delimited, opt_len. unfold opt_encode in *. rewrite K. reflexivity.
Qed.

(** Which buffers have short keys: every sequence of records written by a
    protobuf encoder, whatever their numbers and contents (for instance
    extension options the library knows nothing about), nested less deeply than
    the decoder's limit. *)
Theorem C31_encoder_output_kept {T} (field : nat -> T -> N -> wt -> bytes -> dres T) dflt ctx us o r :
  Forall uf_ok us -> Forall uf_len_ok us -> (ufs_depth us < ctx)%nat ->
  opt_merge field ctx (opt_default dflt) (ufs_encode us) = DOk o r ->
  opt_encode o = ufs_encode us.
Proof.
  intros Hok Hlen Hd. apply C31_bytes_kept.
  exists (map (fun u => WRec (encode_key (uf_number u) (uf_wire_type u)) (uf_number u) (uf_wire_type u) (uf_body u)) us).
  assert (Hin : forall u, In u us -> (uf_depth u < ctx)%nat).
  { intros u Hu. apply uf_depth_In in Hu. lia. }
  clear Hd. induction us as [|u us IH]; [repeat split; constructor|].
  inversion Hok; subst. inversion Hlen; subst. destruct IH as (I1 & I2 & I3); auto.
  { intros; apply Hin; right; assumption. }
  cbn [map]. split; [|split].
  - constructor; [|exact I1]. split; cbn [r_key r_num r_wt r_body].
    + rewrite <- (app_nil_r (encode_key _ _)). apply decode_encode_key, uf_ok_tag. assumption.
    + rewrite <- (app_nil_r (uf_body u)). apply skip_uf; auto. apply Hin. left; reflexivity.
  - cbn [ufs_encode flat_map raws]. rewrite uf_encode_body. unfold ufs_encode in I2. rewrite I2. reflexivity.
  - constructor; [reflexivity|exact I3].
Qed.

(** A type whose fields are all ignored, as unknown options are. *)
Definition ignore (ctx : nat) (v : unit) (n : N) (w : wt) (b : bytes) : dres unit := DOk tt [].

(** Non-vacuity: an options message with a varint, a nested string and a group
    is read and written back. *)
Example C31_nonvacuous :
  let us := [UVarint 50000 7; ULen 51000 [10; 1; 65]; UGroup 60000 [U32 1 [1; 2; 3; 4]]] in
  Forall uf_ok us /\ Forall uf_len_ok us /\ (ufs_depth us < 100)%nat /\
  exists o, opt_merge ignore 100 (opt_default tt) (ufs_encode us) = DOk o [] /\
    opt_encode o = ufs_encode us /\ length (opt_encode o) = 22%nat.
Proof.
  cbn zeta. split; [|split; [|split]].
  - repeat (apply Forall_cons || apply Forall_nil); vm_compute; repeat split; try discriminate;
      repeat (apply Forall_cons || apply Forall_nil); vm_compute; repeat split; try discriminate; auto.
  - repeat (apply Forall_cons || apply Forall_nil); vm_compute; reflexivity.
  - vm_compute. lia.
  - eexists. split; [vm_compute; reflexivity|]. split; vm_compute; reflexivity.
Qed.

(** Without the condition on keys the bytes are not preserved: field 1 with its
    key written in two bytes is written back with one. *)
Theorem C31_refuted_overlong_key :
  exists b o, opt_merge ignore 100 (opt_default tt) b = DOk o [] /\ opt_encode o <> b.
Proof.
  exists [136; 0; 5], (Options [8; 5] tt). split; [vm_compute; reflexivity|]. discriminate.
Qed.

(** Clearing forgets everything: what is read afterwards, and what is written,
    is what it would be for new options. *)
Theorem C31_clear {T} (field : nat -> T -> N -> wt -> bytes -> dres T) dflt ctx (o : options T) :
  opt_encode (opt_clear dflt o) = [] /\ opt_to_prost (opt_clear dflt o) = dflt /\
  (forall b, opt_merge field ctx (opt_clear dflt o) b = opt_merge field ctx (opt_default dflt) b) /\
  (forall b, opt_merge_embedded field ctx (opt_clear dflt o) b = opt_merge_embedded field ctx (opt_default dflt) b).
Proof. repeat split. Qed.
Print Assumptions C31_clear.

Print Assumptions C31_records_kept.
Print Assumptions C31_bytes_kept.
Print Assumptions C31_embedded.
Print Assumptions C31_encoder_output_kept.
Print Assumptions C31_refuted_overlong_key.
