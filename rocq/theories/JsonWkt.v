(** The well-known types between a pool and the typed messages: what
    transcode_to and make_message do when the pool's definition is the standard
    one. *)
From Coq Require Import String.
From Verif Require Import Base BaseProofs Wire WireProofs Unknown UnknownProofs Value Descr Fields
  Codec DescrOk DescrProofs FieldsProofs LenProofs EncBytes MergeProofs RoundSpec RoundProofs RoundMain RoundSame
  CompatSpec Compat Prop_Decode Prop_Transcode Float TextFormat Json JsonSer JsonDe.
Open Scope list_scope.
Open Scope N_scope.

Lemma wkt_wf : wf wkt_tables.
Proof. split; vm_compute; reflexivity. Qed.

(** [standard t d w]: type [d] of the pool is defined like the typed message
    [w] of JsonSer.wkt_tables, and so are the types it refers to. *)
Definition standard (t : tables) (d w : nat) : Prop :=
  exists D rho D' sig, compatible t wkt_tables D rho /\ compatible wkt_tables t D' sig /\
    D d = true /\ rho d = w /\ D' w = true /\ sig w = d /\
    (forall i, D i = true -> D' (rho i) = true /\ sig (rho i) = i) /\
    (forall i, D' i = true -> D (sig i) = true /\ rho (sig i) = i).

(** a message that can be encoded at all: its encoding has a length *)
Definition fits (t : tables) (m : dynmsg) : Prop :=
  forall b, enc_msg t m = Ok b -> N.of_nat (length b) < 2 ^ 64.

(** values without messages inside *)
Definition flat (v : value) : Prop :=
  match v with VList vs => Forall (fun x => scalar x = true) vs | _ => scalar v = true end.
Lemma flat_norm t v f : flat v -> norm t v f = v.
Proof.
  intros H. destruct v as [b|z|z|n|n|n|n|s|s|z|m|vs|kvs]; try reflexivity; try discriminate H.
  cbn in H |- *. f_equal. rewrite <- (map_id vs) at 2. apply map_ext_in. intros x Hx. rewrite Forall_forall in H.
  apply norm_scalar, H, Hx.
Qed.
Lemma flat_ren rho v : flat v -> ren rho v = v.
Proof.
  intros H. destruct v as [b|z|z|n|n|n|n|s|s|z|m|vs|kvs]; try reflexivity; try discriminate H.
  cbn in H |- *. f_equal. rewrite <- (map_id vs) at 2. apply map_ext_in. intros x Hx. rewrite Forall_forall in H.
  apply ren_scalar, H, Hx.
Qed.

Lemma get_norm t m n f : wf t -> ok_msg t m = true -> find_desc t (dm_desc m) n = Some f ->
  flat (get_field_value t m f) -> zero_kept t f (get_field_value t m f) = true ->
  get_field_value t (norm_msg t m) f = get_field_value t m f.
Proof.
  intros Hw Hm Hf Hfl Hz. apply ok_msg_iff in Hm. pose proof (find_desc_ok _ _ _ _ (proj1 Hw) Hf) as Hfo.
  rewrite <- (find_desc_number _ _ _ _ (proj1 Hw) Hf) in Hf.
  unfold get_field_value, fs_get, fs_get_value in *. rewrite norm_get by apply (mo_sorted _ _ Hm). rewrite Hf.
  destruct (bt_get (fd_number f) (dm_fields m)) as [[|v|us]|] eqn:Eb; try reflexivity.
  pose proof (mo_slots _ _ Hm _ _ Eb) as S. cbn in S. rewrite Hf in S.
  destruct (fd_has t f v) eqn:Eh; [apply flat_norm, Hfl|].
  symmetry. apply omitted_default; auto. rewrite has_omitted in Eh. now apply negb_false_iff in Eh.
Qed.

(** what a typed field holds after transcode_to *)
Lemma typed t m d w : wf t -> standard t d w -> ok_msg t m = true -> dm_desc m = d ->
  (msg_depth m <= 100)%nat -> fits t m ->
  exists x, transcode_to t m w = JOk x /\ dm_desc x = w /\
    (exists D rho, compatible t wkt_tables D rho /\ D d = true /\ rho d = w /\ x = ren_msg rho (norm_msg t m)) /\
    forall n f, get_field t d n = Some f -> flat (get_field_value t m f) ->
      zero_kept t f (get_field_value t m f) = true -> typed_get x n = get_field_value t m f.
Proof.
  intros Hw (D & rho & D' & sig & C1 & C2 & Hd & Hr & Hd' & Hs & _) Hm Em Hdp Hfit. clear Hs. subst d. subst w.
  destruct (ok_msg_enc t m Hw Hm) as (b & He & _).
  destruct (transcoded t wkt_tables D rho Hw wkt_wf C1 m b Hd Hm Hdp He (Hfit b He)) as [T1 _].
  exists (ren_msg rho (norm_msg t m)). unfold transcode_to. rewrite He. cbn [jdec jbind]. rewrite T1.
  split; [reflexivity|]. split; [reflexivity|]. split; [exists D, rho; auto|].
  intros n f Hf Hfl Hz. assert (Hfd : find_desc t (dm_desc m) n = Some f) by (unfold find_desc; now rewrite Hf).
  destruct (like_field_some t wkt_tables D rho Hw wkt_wf C1 _ _ _ Hd Hf) as (f' & Ef' & Hl).
  unfold typed_get, get_field_by_number. change (dm_desc (ren_msg rho (norm_msg t m))) with (rho (dm_desc m)).
  rewrite Ef'. cbn [option_map].
  destruct (ren_get_value t wkt_tables D rho (norm_msg t m) n f f' Hw Hl Hfd) as [_ ->].
  rewrite (get_norm t m n f Hw Hm Hfd Hfl Hz). apply flat_ren, Hfl.
Qed.

(** what make_message gives *)
Lemma made t d w x : wf t -> standard t d w -> ok_msg wkt_tables x = true -> dm_desc x = w ->
  (msg_depth x <= 100)%nat -> fits wkt_tables x ->
  exists m, make_message t d x = JOk (Some (VMessage m)) /\ dm_desc m = d /\ ok_msg t m = true /\
    (exists D' sig, compatible wkt_tables t D' sig /\ D' w = true /\ sig w = d /\ m = ren_msg sig (norm_msg wkt_tables x)) /\
    forall n f f', get_field wkt_tables w n = Some f -> get_field t d n = Some f' ->
      has_field t m f' = has_field wkt_tables x f /\
      (flat (get_field_value wkt_tables x f) ->
       zero_kept wkt_tables f (get_field_value wkt_tables x f) = true ->
       get_field_value t m f' = get_field_value wkt_tables x f).
Proof.
  intros Hw (D & rho & D' & sig & C1 & C2 & Hd & Hr & Hd' & Hs & _) Hm Em Hdp Hfit. subst d. clear Hr. subst w.
  destruct (ok_msg_enc wkt_tables x wkt_wf Hm) as (b & He & Hbb).
  destruct (transcoded wkt_tables t D' sig wkt_wf Hw C2 x b Hd' Hm Hdp He (Hfit b He)) as [T1 T2].
  pose proof (ren_msg_ok wkt_tables t D' sig wkt_wf Hw C2 x Hd' Hm) as Hok0.
  exists (ren_msg sig (norm_msg wkt_tables x)). unfold make_message. rewrite He. cbn [jdec jbind].
  unfold msg_decode in T1. destruct (msg_merge t (new_msg (sig (dm_desc x))) b) as [m' r| | |] eqn:Emm; try discriminate T1.
  injection T1 as ->.
  split; [reflexivity|]. split; [reflexivity|]. split; [|split; [exists D', sig; auto|]].
  - assert (Hn : ok_msg wkt_tables (norm_msg wkt_tables x) = true).
    { pose proof (decode_encode_norm wkt_tables wkt_wf x b Hm Hdp He (Hfit b He)) as Dn.
      pose proof (C04_decode_total wkt_tables (dm_desc x) b wkt_wf) as G. rewrite Dn in G.
      apply G; [|exact Hbb]. apply ok_msg_iff in Hm. apply (mo_desc _ _ Hm). }
    exact (ren_msg_ok wkt_tables t D' sig wkt_wf Hw C2 (norm_msg wkt_tables x) Hd' Hn).
  - intros n f f' Hf Hf'.
    assert (Hfd : find_desc wkt_tables (dm_desc x) n = Some f) by (unfold find_desc; now rewrite Hf).
    destruct (like_field_some wkt_tables t D' sig wkt_wf Hw C2 _ _ _ Hd' Hf) as (f1 & Ef1 & Hl).
    rewrite Hf' in Ef1. injection Ef1 as <-.
    destruct (ren_get_value wkt_tables t D' sig (norm_msg wkt_tables x) n f f' wkt_wf Hl Hfd) as [R1 R2].
    rewrite R1, R2. split; [exact (has_field_norm wkt_tables x n f wkt_wf Hm Hfd)|].
    intros Hfl Hz. rewrite (get_norm wkt_tables x n f wkt_wf Hm Hfd Hfl Hz). apply flat_ren, Hfl.
Qed.

(** ** A bound on the size of an encoding *)
Lemma varint_len v : (length (encode_varint v) <= 10)%nat.
Proof.
  unfold encode_varint. generalize 10%nat. intros n. revert v. induction n as [|n IH]; intros v; cbn; [lia|].
  destruct (v <? 128); cbn; [lia|]. specialize (IH (v/128)). lia.
Qed.
Definition vsize (v : value) : N :=
  match v with VString s | VBytes s => 30 + N.of_nat (length s) | _ => 30 end.
Definition fsize (v : value) : N :=
  match v with VList vs => fold_right N.add 0 (map vsize vs) | _ => vsize v end.
Lemma scalar_size t v f b : scalar v = true -> enc_value t v f = Ok b -> N.of_nat (length b) <= vsize v.
Proof.
  intros Hs He. assert (X : enc_value t v f = if negb (fd_presence f) && is_default_for t f v then Ok [] else
    let! wb := of_opt (enc_scalar (fd_kind f) v) in Ok (encode_key (fd_number f) (fst wb) ++ snd wb)).
  { destruct v; try discriminate Hs; reflexivity. }
  rewrite X in He. clear X. destruct (negb (fd_presence f) && is_default_for t f v).
  { injection He as <-. cbn. lia. }
  destruct (enc_scalar (fd_kind f) v) as [[w bb]|] eqn:Ee; [|discriminate He]. cbn [of_opt rbind fst snd] in He. injection He as <-.
  rewrite app_length. unfold encode_key. pose proof (varint_len (u32 (fd_number f * 8) + wt_num w)) as L.
  assert (L2 : N.of_nat (length bb) <= vsize v - 10); [|destruct v; cbn [vsize] in *; unfold bytes in *; lia].
  destruct v; destruct (fd_kind f); try discriminate Ee; cbn [enc_scalar] in Ee; injection Ee as <- <-; cbn [vsize];
    try (cbn [length]; lia);
    try (match goal with |- context [encode_varint ?x] => pose proof (varint_len x) end; unfold bytes in *; lia).
  all: unfold write_delimited; rewrite app_length;
    match goal with |- context [encode_varint ?x] => pose proof (varint_len x) end; unfold bytes in *; lia.
Qed.
Lemma rcat_size {A} (g : A -> res bytes) (h : A -> N) l b : rcat g l = Ok b ->
  (forall x c, In x l -> g x = Ok c -> N.of_nat (length c) <= h x) ->
  N.of_nat (length b) <= fold_right N.add 0 (map h l).
Proof.
  revert b. induction l as [|x l IH]; intros b He Hb; cbn in He |- *.
  - injection He as <-. cbn. lia.
  - destruct (g x) as [c| | |] eqn:E1; try discriminate He. cbn in He.
    destruct (rcat g l) as [c'| | |] eqn:E2; try discriminate He. cbn in He. injection He as <-.
    rewrite app_length, Nat2N.inj_add. pose proof (Hb x c (or_introl eq_refl) E1).
    assert (N.of_nat (length c') <= fold_right N.add 0 (map h l)); [|lia].
    apply IH; auto. intros y c0 Hy. apply Hb. now right.
Qed.
Lemma flat_size t v f b : flat v -> fd_packed f = false -> enc_value t v f = Ok b -> N.of_nat (length b) <= fsize v.
Proof.
  intros Hf Hp He. destruct v as [x|z|z|n|n|n|n|s|s|z|m|vs|kvs]; try discriminate Hf; try (eapply scalar_size; eauto; reflexivity).
  cbn [enc_value fsize] in *. destruct (negb _ && _); [injection He as <-; cbn; lia|].
  destruct (fd_is_list f); [|discriminate He]. rewrite Hp in He.
  eapply rcat_size; [exact He|]. intros y c Hy Hc. cbn in Hf. rewrite Forall_forall in Hf. exact (scalar_size _ _ _ _ (Hf y Hy) Hc).
Qed.
Lemma filter_len {A B} (g : A -> list B) l : (forall x, (length (g x) <= 1)%nat) -> (length (flat_map g l) <= length l)%nat.
Proof. intros H. induction l as [|x l IH]; cbn; [lia|]. rewrite app_length. specialize (H x). lia. Qed.
Lemma flat_fits t d fs B : wf t ->
  (forall n s, In (n, s) fs -> exists v, s = SVal v /\ flat v /\ fsize v <= B) ->
  (forall n f, find_desc t d n = Some f -> fd_packed f = false) ->
  B * N.of_nat (length (msg_fields t d) + length fs) < 2 ^ 64 ->
  fits t (DM d fs).
Proof.
  intros Ht Hs Hp Hb b He. unfold enc_msg in He. cbn [dm_desc dm_fields] in He.
  eapply N.le_lt_trans; [|exact Hb].
  assert (L : (length (fs_iter t d false false fs) <= length (msg_fields t d) + length fs)%nat).
  { unfold fs_iter, fs_iter_gen. rewrite app_length. apply Nat.add_le_mono.
    - unfold iter_declared. apply filter_len. intros f. destruct (fs_get_value fs (fd_number f)) as [v|]; cbn;
        [destruct (fd_has t f v); cbn; lia|lia].
    - unfold iter_rest. apply filter_len. intros [n s]. cbn. destruct s as [|a|us]; cbn; try lia.
      destruct (get_ext t d n) as [f|]; cbn; [destruct (fd_has t f a); cbn; lia|lia]. }
  apply N.le_trans with (fold_right N.add 0 (map (fun _ : item value => B) (fs_iter t d false false fs))).
  - eapply rcat_size; [exact He|]. intros it c Hi Hc. pose proof (iter_items t d false fs it (proj1 Ht) Hi) as Q.
    destruct it as [f v|f v|us]; cbn in Hc.
    + destruct Q as (Q1 & Q2 & _). destruct (Hs _ _ (bt_get_In _ _ _ Q2)) as (v' & Ev & Hfl & Hsz). injection Ev as <-.
      eapply N.le_trans; [eapply (flat_size t v f c); eauto|exact Hsz]. apply (Hp (fd_number f)). unfold find_desc. now rewrite Q1.
    + destruct Q as (Q1 & Q2 & _). destruct (Hs _ _ Q2) as (v' & Ev & Hfl & Hsz). injection Ev as <-.
      eapply N.le_trans; [eapply (flat_size t v f c); eauto|exact Hsz]. apply (Hp (fd_number f)). unfold find_desc.
      now rewrite (field_ext_disjoint t d _ _ Ht Q1).
    + destruct Q as [n Q]. destruct (Hs _ _ Q) as (v & Ev & _). discriminate Ev.
  - apply N.le_trans with (B * N.of_nat (length (fs_iter t d false false fs))).
    + generalize (fs_iter t d false false fs). clear. intros l. induction l as [|x l IH].
      * cbn. lia.
      * cbn [map fold_right length]. rewrite Nat2N.inj_succ. lia.
    + apply N.mul_le_mono_l. lia.
Qed.
(** no typed message of those modelled has packed fields *)
Lemma wkt_unpacked d n f : find_desc wkt_tables d n = Some f -> fd_packed f = false.
Proof.
  intros H. unfold find_desc in H. destruct (get_field wkt_tables d n) as [f0|] eqn:E.
  - injection H as ->. pose proof (get_field_number _ _ _ _ (proj1 wkt_wf) E) as En. rewrite <- En in E.
    apply (msg_fields_get _ _ _ (proj1 wkt_wf)) in E.
    assert (A : forallb (fun i => forallb (fun f => negb (fd_packed f)) (msg_fields wkt_tables i)) (seq 0 18) = true) by (vm_compute; reflexivity).
    rewrite forallb_forall in A. destruct (Nat.ltb d 18) eqn:El.
    + apply Nat.ltb_lt in El. specialize (A d (proj2 (in_seq _ _ _) (conj (Nat.le_0_l _) El))). rewrite forallb_forall in A.
      apply negb_true_iff. exact (A _ E).
    + apply Nat.ltb_ge in El. unfold msg_fields in E. rewrite (proj2 (nth_error_None (t_messages wkt_tables) d)) in E; [destruct E|exact El].
  - destruct (get_ext_inv _ _ _ _ (proj1 wkt_wf) H) as (_ & Hin & _).
    destruct (msg_exts_inv _ _ _ (proj1 wkt_wf) Hin) as (m & x & e & E1 & E2 & E3 & _). destruct x; discriminate E3.
Qed.
