(** Decoding is total and keeps messages valid (C04, C05, C11, C16). *)
From Verif Require Import Base BaseProofs Wire WireProofs LoopProofs Unknown UnknownProofs Value Descr
  Fields Codec DescrOk DescrProofs FieldsProofs.

(** ** Message-level reading of [ok_elem] and [depth] *)
Lemma ok_elem_msg t m k :
  ok_elem t (VMessage m) k =
  match kind_msg k with
  | Some i => (dm_desc m =? i)%nat && ok_msg t m
  | None => false
  end.
Proof.
  destruct m as [d fs]. cbn [ok_elem]. destruct (kind_msg k) as [i|]; [|reflexivity].
  unfold ok_msg. cbn [dm_desc dm_fields]. rewrite !andb_assoc. f_equal.
Qed.
Lemma depth_msg m : depth (VMessage m) = S (msg_depth m).
Proof. destruct m as [d fs]. reflexivity. Qed.

(** A stored value that is not a list or map *)
Definition plain (v : value) : bool := match v with VList _ | VMap _ => false | _ => true end.
Lemma ok_elem_plain t v k : ok_elem t v k = true -> plain v = true.
Proof. destruct v; cbn; congruence. Qed.
Lemma ok_field_plain t f v :
  plain v = true ->
  ok_field t f v = negb (fd_is_list f) && negb (fd_is_map f) && ok_elem t v (fd_kind f).
Proof. destruct v; cbn; congruence. Qed.
Lemma ok_elem_scalar t v k : is_msg_kind k = false -> ok_elem t v k = true -> sc_okb k v = true.
Proof.
  intros Hk H. unfold is_msg_kind in Hk.
  destruct v as [| | | | | | | | | |[d fs]| |]; cbn [ok_elem] in H; auto; try discriminate.
  destruct (kind_msg k); discriminate.
Qed.
Lemma sc_ok_elem t v k : sc_okb k v = true -> ok_elem t v k = true.
Proof. destruct v; cbn; try congruence; destruct k; discriminate. Qed.
Lemma ok_elem_msg_inv t v k i :
  kind_msg k = Some i -> ok_elem t v k = true ->
  exists m, v = VMessage m /\ dm_desc m = i /\ ok_msg t m = true.
Proof.
  intros Hk H. destruct v; try (cbn in H; destruct k; discriminate).
  rewrite ok_elem_msg, Hk in H. apply andb_true_iff in H. destruct H as [H1 H2].
  exists m. split; [reflexivity|]. split; [now apply Nat.eqb_eq|exact H2].
Qed.

(** ** Lookup-wise reading of [ok_msg] *)
Definition oneofs_ok (t : tables) (d : nat) (fs : fieldset) : Prop :=
  forall n g v nums k w, bt_get n fs = Some (SVal v) -> get_field t d n = Some g ->
    fd_oneof g = Some nums -> In k nums -> k <> n -> bt_get k fs <> Some (SVal w).

Lemma oneofs_okb_ok t d fs : bt_sorted fs -> oneofs_okb t d fs = true <-> oneofs_ok t d fs.
Proof.
  intros Hs. unfold oneofs_okb, oneofs_ok. rewrite forallb_forall. split.
  - intros H n g v nums k w Hn Hg Ho Hk Hne Hc.
    specialize (H _ (bt_get_In _ _ _ Hn)). cbn [fst snd] in H. rewrite Hg, Ho in H.
    rewrite forallb_forall in H. specialize (H k Hk). rewrite Hc in H. lia.
  - intros H [n s] Hin. cbn [fst snd]. destruct s as [|v|us]; auto.
    destruct (get_field t d n) as [g|] eqn:Eg; auto. destruct (fd_oneof g) as [nums|] eqn:Eo; auto.
    apply forallb_forall. intros k Hk. destruct (k =? n) eqn:E; [reflexivity|]. cbn [orb].
    destruct (bt_get k fs) as [[|w|us]|] eqn:Eb; auto.
    exfalso. apply (H n g v nums k w (bt_In_get _ _ _ Hs Hin) Eg Eo Hk ltac:(lia) Eb).
Qed.

Lemma slots_ok_iff (P : N * slot value -> bool) fs :
  bt_sorted fs ->
  forallb P fs = true <-> (forall n s, bt_get n fs = Some s -> P (n, s) = true).
Proof.
  intros Hs. rewrite forallb_forall. split.
  - intros H n s Hb. apply H, bt_get_In, Hb.
  - intros H [n s] Hin. apply H, bt_In_get; assumption.
Qed.

Record msg_ok (t : tables) (m : dynmsg) : Prop := {
  mo_desc : (dm_desc m < length (t_messages t))%nat;
  mo_sorted : bt_sorted (dm_fields m);
  mo_oneof : oneofs_ok t (dm_desc m) (dm_fields m);
  mo_slots : forall n s, bt_get n (dm_fields m) = Some s -> ok_slot t (dm_desc m) (n, s) = true
}.
Lemma ok_msg_iff t m : ok_msg t m = true <-> msg_ok t m.
Proof.
  unfold ok_msg. rewrite !andb_true_iff, bt_sortedb_ok. split.
  - intros [[[H1 H2] H3] H4]. constructor; auto.
    + lia.
    + now apply oneofs_okb_ok.
    + now apply slots_ok_iff.
  - intros [H1 H2 H3 H4]. repeat split; auto.
    + lia.
    + now apply oneofs_okb_ok.
    + now apply slots_ok_iff.
Qed.

Lemma list_max_le_iff l n : (list_max l <= n)%nat <-> Forall (fun x => (x <= n)%nat) l.
Proof. apply list_max_le. Qed.

Lemma msg_depth_iff m D :
  bt_sorted (dm_fields m) ->
  (msg_depth m <= D)%nat <->
  (forall n s, bt_get n (dm_fields m) = Some s -> (depth_slot s <= D)%nat).
Proof.
  intros Hs. unfold msg_depth. rewrite list_max_le_iff, Forall_forall. split.
  - intros H n s Hb. apply H, in_map_iff. exists (n, s). split; [reflexivity|now apply bt_get_In].
  - intros H x Hx. apply in_map_iff in Hx. destruct Hx as ([n s] & <- & Hin). cbn.
    eapply H, bt_In_get; eassumption.
Qed.

Lemma new_msg_ok t d : (d < length (t_messages t))%nat -> msg_ok t (new_msg d).
Proof.
  intros H. constructor; cbn; auto; try discriminate; intros n g v nums k w; discriminate.
Qed.

(** ** Assigning one field *)

(** [fs'] is [fs] with [v] assigned to [f]: f's oneof siblings are gone and
    everything else is as before. *)
Definition assigned (f : fdl) (v : value) (fs fs' : fieldset) : Prop :=
  bt_sorted fs' /\
  forall k, bt_get k fs' =
    if k =? fd_number f then Some (SVal v)
    else if siblingb f k then None else bt_get k fs.

Lemma assigned_set f v fs : bt_sorted fs -> assigned f v fs (fs_set f v fs).
Proof. intros H. split; [now apply set_sorted|]. intros k. apply set_get. Qed.

Lemma assigned_put t f v fs :
  bt_sorted fs -> assigned f v fs (fs_put f v (fs_get_mut t f fs)).
Proof.
  intros H. split; [now apply put_sorted, get_mut_sorted|]. intros k. unfold fs_put.
  destruct (k =? fd_number f) eqn:E.
  - assert (k = fd_number f) by lia. subst k. apply bt_get_set_same.
  - rewrite bt_get_set_other by lia. rewrite get_mut_get, E. reflexivity.
Qed.

Lemma assigned_ok t d fs f v fs' :
  tables_ok t -> msg_ok t (DM d fs) -> find_desc t d (fd_number f) = Some f ->
  ok_field t f v = true -> assigned f v fs fs' -> msg_ok t (DM d fs').
Proof.
  intros Ht [H1 H2 H3 H4] Hf Hv [Hs Hg]. cbn [dm_desc dm_fields] in *.
  constructor; cbn [dm_desc dm_fields]; auto.
  - intros n g v0 nums k w Hn Hgf Ho Hk Hne Hc.
    rewrite Hg in Hn, Hc.
    destruct (n =? fd_number f) eqn:En.
    + assert (n = fd_number f) by lia. subst n.
      unfold find_desc in Hf. rewrite Hgf in Hf. injection Hf as ->.
      replace (k =? fd_number f) with false in Hc by lia.
      assert (Sb : siblingb f k = true) by (apply siblingb_ok; exists nums; auto).
      rewrite Sb in Hc. discriminate.
    + destruct (siblingb f n) eqn:Es; [discriminate|].
      destruct (k =? fd_number f) eqn:Ek.
      * assert (k = fd_number f) by lia. subst k.
        destruct (oneof_siblings _ _ _ _ _ _ Ht Hgf Ho Hk) as (f' & E1 & E2).
        unfold find_desc in Hf. rewrite E1 in Hf. injection Hf as ->.
        apply siblingb_nok in Es. apply Es. exists nums. split; [exact E2|].
        split; [|lia]. eapply oneof_self; eassumption.
      * destruct (siblingb f k); [discriminate|].
        exact (H3 n g v0 nums k w Hn Hgf Ho Hk Hne Hc).
  - intros n s Hn. rewrite Hg in Hn. destruct (n =? fd_number f) eqn:En.
    + assert (n = fd_number f) by lia. subst n. injection Hn as <-.
      unfold ok_slot. cbn [fst snd]. now rewrite Hf.
    + destruct (siblingb f n); [discriminate|]. now apply H4.
Qed.

Lemma assigned_depth f v fs fs' d D :
  bt_sorted fs -> (msg_depth (DM d fs) <= D)%nat -> (depth v <= D)%nat -> assigned f v fs fs' ->
  (msg_depth (DM d fs') <= D)%nat.
Proof.
  intros Hs Hm Hv [Hs' Hg]. rewrite msg_depth_iff in * by assumption. cbn [dm_fields] in *.
  intros n s Hn. rewrite Hg in Hn. destruct (n =? fd_number f).
  - injection Hn as <-. exact Hv.
  - destruct (siblingb f n); [discriminate|]. eapply Hm; eassumption.
Qed.

(** ** Unknown records *)
Lemma add_unknown_ok t d fs n u :
  msg_ok t (DM d fs) -> find_desc t d n = None -> uf_ok u -> uf_number u = n ->
  exists fs', fs_add_unknown n u fs = Ok fs' /\ msg_ok t (DM d fs') /\
    (forall k, bt_get k fs' = if k =? n then Some (SUnk (match bt_get n fs with
                                                       | Some (SUnk us) => us ++ [u]
                                                       | _ => [u] end))
                             else bt_get k fs).
Proof.
  intros [H1 H2 H3 H4] Hf Hu Hn. cbn [dm_desc dm_fields] in *.
  assert (Hok : forall us, forallb (fun u => (uf_number u =? n) && uf_okb u) us = true ->
     us <> [] -> msg_ok t (DM d (bt_set n (SUnk us) fs))).
  { intros us Hus Hne. constructor; cbn [dm_desc dm_fields]; auto.
    - now apply bt_set_sorted.
    - intros n0 g v nums k w Hn0 Hg Ho Hk Hne' Hc.
      destruct (N.eq_dec n0 n) as [->|E]; [rewrite bt_get_set_same in Hn0; discriminate|].
      destruct (N.eq_dec k n) as [->|E']; [rewrite bt_get_set_same in Hc; discriminate|].
      rewrite bt_get_set_other in Hn0 by exact E. rewrite bt_get_set_other in Hc by exact E'.
      exact (H3 n0 g v nums k w Hn0 Hg Ho Hk Hne' Hc).
    - intros n0 s Hs. destruct (N.eq_dec n0 n) as [->|E].
      + rewrite bt_get_set_same in Hs. injection Hs as <-.
        unfold ok_slot. cbn [fst snd]. rewrite Hf, Hus.
        destruct us as [|u0 us]; [congruence|].
        pose proof (uf_ok_tag _ Hu) as Ht. rewrite Hn in Ht. apply tag_okb_ok in Ht. now rewrite Ht.
      + rewrite bt_get_set_other in Hs by exact E. now apply H4. }
  assert (Hu1 : forallb (fun u => (uf_number u =? n) && uf_okb u) [u] = true).
  { cbn. apply uf_okb_ok in Hu. rewrite Hu, Hn, N.eqb_refl. reflexivity. }
  assert (Hg : forall us k, bt_get k (bt_set n (SUnk us) fs)
                            = if k =? n then Some (SUnk us) else bt_get k fs).
  { intros us k. destruct (k =? n) eqn:E.
    - assert (k = n) by lia. subst k. apply bt_get_set_same.
    - apply bt_get_set_other. lia. }
  unfold fs_add_unknown. destruct (bt_get n fs) as [[|v|us]|] eqn:Eb.
  - eexists. split; [reflexivity|]. split; [apply Hok; [exact Hu1|discriminate]|]. apply Hg.
  - pose proof (H4 _ _ Eb) as H5. unfold ok_slot in H5. cbn [fst snd] in H5.
    rewrite Hf in H5. discriminate.
  - eexists. split; [reflexivity|]. split; [|apply Hg]. apply Hok.
    + pose proof (H4 _ _ Eb) as H5. unfold ok_slot in H5. cbn [fst snd] in H5. rewrite Hf in H5.
      apply andb_true_iff in H5. destruct H5 as [_ H5]. rewrite forallb_app, H5, Hu1. reflexivity.
    + destruct us; discriminate.
  - eexists. split; [reflexivity|]. split; [apply Hok; [exact Hu1|discriminate]|]. apply Hg.
Qed.

(** ** Scalars *)
Lemma read_delimited_ok b s r : bytes_ok b -> read_delimited b = Ok (s, r) -> bytes_ok s.
Proof.
  intros Hb H. unfold read_delimited in H. apply rbind_ok in H. destruct H as [[l r'] [H1 H2]].
  apply decode_varint_suffix in H1. pose proof (suffix_ok _ _ H1 Hb) as Hr.
  apply take_bytes_inv in H2. destruct H2 as [-> _]. apply bytes_ok_app in Hr. tauto.
Qed.

Lemma rd_good e w old r b (Inv : value -> Prop) :
  r <> Panic /\ r <> Fuel -> Inv old ->
  (forall a rest, r = Ok (a, rest) -> Inv a /\ suffix rest b) ->
  good Inv b (rd e w old r).
Proof.
  intros H1 H2 H3. unfold rd. destruct (wt_eqb e w); [|exact H2].
  apply good_dlift; auto.
Qed.

Lemma rd_varint_np buf g : rd_varint buf g <> Panic /\ rd_varint buf g <> Fuel.
Proof.
  unfold rd_varint. pose proof (decode_varint_nopanic buf) as [A B].
  destruct (decode_varint buf) as [[x r]| | |]; cbn; split; congruence.
Qed.
Lemma rd_le_np n buf g : rd_le n buf g <> Panic /\ rd_le n buf g <> Fuel.
Proof.
  unfold rd_le. pose proof (le_decode_nopanic n buf) as [A B].
  destruct (le_decode n buf) as [[x r]| | |]; cbn; split; congruence.
Qed.
Lemma rd_varint_inv buf g v r :
  bytes_ok buf -> rd_varint buf g = Ok (v, r) ->
  exists x, v = g x /\ x < two64 /\ suffix r buf /\ (length r < length buf)%nat.
Proof.
  unfold rd_varint. intros Hb H. apply rbind_ok in H. destruct H as [[x r'] [H1 H2]].
  injection H2 as <- <-. exists x. split; [reflexivity|].
  pose proof (decode_varint_suffix _ _ _ H1).
  pose proof (decode_varint_len _ _ _ H1). split; [|split; [assumption|lia]].
  eapply decode_varint_bound; eassumption.
Qed.
Lemma rd_le_inv n buf g v r :
  bytes_ok buf -> 1 <= n -> rd_le n buf g = Ok (v, r) ->
  exists x, v = g x /\ x < 256 ^ n /\ suffix r buf /\ (length r < length buf)%nat.
Proof.
  unfold rd_le. intros Hb Hn H. apply rbind_ok in H. destruct H as [[x r'] [H1 H2]].
  injection H2 as <- <-. exists x. split; [reflexivity|].
  pose proof (le_decode_suffix _ _ _ _ H1) as Hs. split; [|split; [exact Hs|]].
  - unfold le_decode in H1. apply rbind_ok in H1. destruct H1 as [[s r''] [H1 H3]].
    injection H3 as <- <-. apply take_bytes_inv in H1. destruct H1 as [-> Hl].
    rewrite <- Hl. apply le_value_bound. apply bytes_ok_app in Hb. tauto.
  - unfold le_decode in H1. apply rbind_ok in H1. destruct H1 as [[s r''] [H1 H3]].
    injection H3 as <- <-. apply take_bytes_inv in H1. destruct H1 as [-> Hl].
    rewrite app_length. lia.
Qed.

Lemma merge_scalar_good k v w b :
  sc_okb k v = true -> bytes_ok b ->
  exists d, merge_scalar k v w b = Some d /\ good (fun v' => sc_okb k v' = true) b d /\
    (is_packable k = true -> forall v' r, d = DOk v' r -> (length r < length b)%nat).
Proof.
  intros Hv Hb.
  assert (RV : forall g, (forall x, x < two64 -> sc_okb k (g x) = true) ->
    good (fun v' => sc_okb k v' = true) b (rd WVarint w v (rd_varint b g)) /\
    (is_packable k = true -> forall v' r, rd WVarint w v (rd_varint b g) = DOk v' r ->
       (length r < length b)%nat)).
  { intros g Hg. split.
    - apply rd_good; [apply rd_varint_np|exact Hv|]. intros a rest H.
      destruct (rd_varint_inv _ _ _ _ Hb H) as (x & -> & Hx & Hs & _). auto.
    - intros _ v' r. unfold rd. destruct (wt_eqb WVarint w); [|discriminate].
      destruct (rd_varint b g) as [[a rest]| | |] eqn:E; cbn; try discriminate.
      intros [= <- <-]. destruct (rd_varint_inv _ _ _ _ Hb E) as (x & _ & _ & _ & Hl). exact Hl. }
  assert (RL : forall e n g, 1 <= n -> (forall x, x < 256 ^ n -> sc_okb k (g x) = true) ->
    good (fun v' => sc_okb k v' = true) b (rd e w v (rd_le n b g)) /\
    (is_packable k = true -> forall v' r, rd e w v (rd_le n b g) = DOk v' r ->
       (length r < length b)%nat)).
  { intros e n g Hn Hg. split.
    - apply rd_good; [apply rd_le_np|exact Hv|]. intros a rest H.
      destruct (rd_le_inv _ _ _ _ _ Hb Hn H) as (x & -> & Hx & Hs & _). auto.
    - intros _ v' r. unfold rd. destruct (wt_eqb e w); [|discriminate].
      destruct (rd_le n b g) as [[a rest]| | |] eqn:E; cbn; try discriminate.
      intros [= <- <-]. destruct (rd_le_inv _ _ _ _ _ Hb Hn E) as (x & _ & _ & _ & Hl). exact Hl. }
  assert (E4 : 256 ^ 4 = two32) by reflexivity.
  assert (E8 : 256 ^ 8 = two64) by reflexivity.
  destruct v, k; cbn in Hv; try discriminate; cbn [merge_scalar];
    (eexists; split; [reflexivity|]).
  all: try (apply RV; intros x Hx; cbn [sc_okb];
            first [reflexivity|apply si32_range|apply si64_range|apply unzigzag32_range
                  |apply unzigzag64_range
                  |unfold u32_ok, u32, two32; lia
                  |unfold u64_ok; lia]).
  all: try (apply RL; [lia|]; rewrite ?E4, ?E8; intros x Hx; cbn [sc_okb];
            first [apply si32_range|apply si64_range|unfold u32_ok; lia|unfold u64_ok; lia]).
  - (* string *) split; [|discriminate].
    apply rd_good; [|reflexivity|].
    + unfold rd_string. pose proof (read_delimited_nopanic b) as [A B].
      destruct (read_delimited b) as [[s0 r]| | |]; cbn; try (split; congruence).
      destruct (utf8_valid s0); split; discriminate.
    + intros a rest H. unfold rd_string in H. apply rbind_ok in H. destruct H as [[s0 r0] [H1 H2]].
      destruct (utf8_valid s0) eqn:E; [|discriminate]. injection H2 as <- <-.
      split; [|eapply read_delimited_suffix; eassumption].
      cbn. rewrite E, andb_true_r. apply bytes_okb_ok. eapply read_delimited_ok; eassumption.
  - (* bytes *) split; [|discriminate].
    apply rd_good; [|exact Hv|].
    + pose proof (read_delimited_nopanic b) as [A B].
      destruct (read_delimited b) as [[s0 r]| | |]; cbn; split; congruence.
    + intros a rest H. apply rbind_ok in H. destruct H as [[s0 r0] [H1 H2]].
      injection H2 as <- <-. split; [|eapply read_delimited_suffix; eassumption].
      cbn. apply bytes_okb_ok. eapply read_delimited_ok; eassumption.
Qed.

(** map keys *)
Lemma mk_value_ok k key : mk_okb k key = sc_okb k (mk_value key).
Proof. destruct key, k; reflexivity. Qed.
Lemma value_mk_ok k key v :
  mk_okb k key = true -> sc_okb k v = true -> exists key', value_mk v = Some key' /\ mk_okb k key' = true.
Proof. destruct key, k; cbn; try discriminate; destruct v; cbn; try discriminate; intros _ H; eauto. Qed.

Lemma mk_merge_good k key w b :
  mk_okb k key = true -> bytes_ok b ->
  good (fun key' => mk_okb k key' = true) b (mk_merge k key w b).
Proof.
  intros Hk Hb. unfold mk_merge.
  destruct (merge_scalar_good k (mk_value key) w b) as (d & E & Hg & _); [now rewrite <- mk_value_ok|exact Hb|].
  rewrite E. destruct d as [v r|e v| |]; cbn in Hg; try contradiction.
  - destruct Hg as [Hg Hs]. destruct (value_mk_ok k key v Hk Hg) as (key' & -> & Hk'). split; assumption.
  - destruct (value_mk_ok k key v Hk Hg) as (key' & -> & Hk'). exact Hk'.
Qed.

Lemma mk_default_ok k k0 : mk_default k = Some k0 -> mk_okb k k0 = true.
Proof. destruct k; cbn; intros [= <-]; reflexivity. Qed.

(** skip_field *)
Lemma skip_field_good ctx : forall w n b, bytes_ok b ->
  match skip_field ctx w n b with
  | Ok r => suffix r b
  | Err _ => True
  | Panic | Fuel => False
  end.
Proof.
  induction ctx as [|ctx IH]; intros w n b Hb; [exact I|].
  destruct w; cbn [skip_field].
  - pose proof (decode_varint_nopanic b) as [A B].
    destruct (decode_varint b) as [[x r]| | |] eqn:E; cbn; auto; try congruence.
    eapply decode_varint_suffix; eassumption.
  - pose proof (take_bytes_nopanic 8 b) as [A B].
    destruct (take_bytes 8 b) as [[x r]| | |] eqn:E; cbn; auto; try congruence.
    eapply take_bytes_suffix; eassumption.
  - pose proof (read_delimited_nopanic b) as [A B].
    destruct (read_delimited b) as [[x r]| | |] eqn:E; cbn; auto; try congruence.
    eapply read_delimited_suffix; eassumption.
  - match goal with |- context [group_loop _ ?st _ _ _] => set (step := st) end.
    assert (Hg : good (fun _ : unit => True) b (group_loop (S (length b)) step n tt b)).
    { apply group_loop_good with (L := length b); auto.
      intros s n' w b' _ _ Hb' _. subst step. cbn beta. specialize (IH w n' b' Hb').
      destruct (skip_field ctx w n' b') as [r| | |]; cbn; auto. }
    destruct (group_loop (S (length b)) step n tt b) as [s r|e s| |]; cbn in Hg; try contradiction; auto.
    apply Hg.
  - exact I.
  - pose proof (take_bytes_nopanic 4 b) as [A B].
    destruct (take_bytes 4 b) as [[x r]| | |] eqn:E; cbn; auto; try congruence.
    eapply take_bytes_suffix; eassumption.
Qed.

(** ** Maps *)
Lemma map_insert_keys {A} k (v : A) l k' :
  existsb (fun kv => mk_eqb k' (fst kv)) (map_insert k v l)
  = mk_eqb k' k || existsb (fun kv => mk_eqb k' (fst kv)) l.
Proof.
  induction l as [|[k0 v0] l IH]; cbn; [reflexivity|].
  destruct (mk_eqb k k0) eqn:E; cbn.
  - apply mk_eqb_eq in E. subst k0. now destruct (mk_eqb k' k).
  - rewrite IH. destruct (mk_eqb k' k0), (mk_eqb k' k); reflexivity.
Qed.
Lemma mk_eqb_sym a b : mk_eqb a b = mk_eqb b a.
Proof.
  destruct (mk_eqb a b) eqn:E.
  - apply mk_eqb_eq in E. subst. symmetry. now apply mk_eqb_eq.
  - destruct (mk_eqb b a) eqn:E2; [|reflexivity]. apply mk_eqb_eq in E2. subst.
    rewrite (proj2 (mk_eqb_eq a a) eq_refl) in E. discriminate.
Qed.
Lemma map_insert_nodup {A} k (v : A) l : keys_nodupb l = true -> keys_nodupb (map_insert k v l) = true.
Proof.
  induction l as [|[k0 v0] l IH]; cbn; [reflexivity|].
  intros H. apply andb_true_iff in H. destruct H as [H1 H2].
  destruct (mk_eqb k k0) eqn:E; cbn; [now rewrite H1|].
  rewrite map_insert_keys, (mk_eqb_sym k0 k), E. cbn. rewrite H1. apply IH, H2.
Qed.
Lemma map_insert_In {A} k (v : A) l kv : In kv (map_insert k v l) -> kv = (k, v) \/ In kv l.
Proof.
  induction l as [|[k0 v0] l IH]; cbn; [intuition|].
  destruct (mk_eqb k k0) eqn:E; cbn.
  - apply mk_eqb_eq in E. subst. intros [<-|H]; auto.
  - intros [<-|H]; auto. destruct (IH H); auto.
Qed.

(** ** Defaults *)
Lemma kind_default_ok t k : kind_okb t k = true -> ok_elem t (kind_default t k) k = true.
Proof.
  intros H. destruct (is_msg_kind k) eqn:E.
  - unfold is_msg_kind in E. destruct (kind_msg k) as [i|] eqn:Ek; [|discriminate].
    assert (Ed : kind_default t k = VMessage (new_msg i)) by (destruct k; cbn in *; congruence).
    rewrite Ed, ok_elem_msg, Ek. cbn [new_msg dm_desc]. rewrite Nat.eqb_refl. cbn [andb].
    apply ok_msg_iff, new_msg_ok.
    destruct k; cbn in *; try discriminate; injection Ek as <-; now apply Nat.ltb_lt.
  - apply sc_ok_elem. now apply kind_default_sc.
Qed.
Lemma kind_default_depth t k : (depth (kind_default t k) <= if is_msg_kind k then 1 else 0)%nat.
Proof. destruct k; cbn; lia. Qed.

Lemma is_list_repeated f : is_repeated f = false -> fd_is_list f = false.
Proof. unfold fd_is_list, is_repeated. now intros ->. Qed.

Lemma default_ok t f :
  fdl_ok t f -> fdl_shape t f -> ok_field t f (fd_default_value t f) = true.
Proof.
  intros Ho Hs. unfold fd_default_value.
  destruct (fd_is_list f) eqn:El; [cbn; now rewrite El|].
  destruct (fd_is_map f) eqn:Em.
  - destruct (fs_map _ _ Hs Em) as (e & kf & vf & k0 & H1 & H2 & H3 & _).
    cbn. now rewrite H1, Em, H2, H3.
  - destruct (fd_default f) as [v|] eqn:Ed.
    + pose proof (fo_default _ _ Ho v Ed) as Hv. apply (sc_ok_elem t) in Hv.
      rewrite ok_field_plain by (eapply ok_elem_plain; eassumption). now rewrite El, Em, Hv.
    + pose proof (kind_default_ok _ _ (fo_kind _ _ Ho)) as Hv.
      rewrite ok_field_plain by (eapply ok_elem_plain; eassumption). now rewrite El, Em, Hv.
Qed.
Lemma sc_depth k v : sc_okb k v = true -> depth v = O.
Proof. destruct v, k; cbn; congruence. Qed.
Lemma default_depth t f :
  fdl_ok t f -> (depth (fd_default_value t f) <= if is_msg_kind (fd_kind f) then 1 else 0)%nat.
Proof.
  intros Ho. unfold fd_default_value.
  destruct (fd_is_list f); [cbn; lia|]. destruct (fd_is_map f); [cbn; lia|].
  destruct (fd_default f) as [v|] eqn:Ed; [|apply kind_default_depth].
  rewrite (sc_depth _ _ (fo_default _ _ Ho v Ed)). lia.
Qed.

(** ** Totality of merging *)

Section Total.
  Variable t : tables.
  Hypothesis Hwf : wf t.

  Definition field_inv (f : fdl) (D : nat) (v : value) : Prop :=
    ok_field t f v = true /\ (depth v <= D)%nat.
  Definition elem_inv (k : kind) (D : nat) (v : value) : Prop :=
    ok_elem t v k = true /\ (depth v <= D)%nat.
  Definition msg_inv (d : nat) (D : nat) (m : dynmsg) : Prop :=
    dm_desc m = d /\ msg_ok t m /\ (msg_depth m <= D)%nat.

  Lemma stored_ok d fs f :
    msg_ok t (DM d fs) -> find_desc t d (fd_number f) = Some f ->
    ok_field t f (fs_get t f fs) = true.
  Proof.
    intros [H1 H2 H3 H4] Hf. cbn [dm_desc dm_fields] in *. unfold fs_get, fs_get_value.
    pose proof (default_ok t f (find_desc_ok _ _ _ _ (proj1 Hwf) Hf) (find_desc_shape _ _ _ _ Hwf Hf)) as Hd.
    destruct (bt_get (fd_number f) fs) as [[|v|us]|] eqn:E; auto.
    specialize (H4 _ _ E). unfold ok_slot in H4. cbn [fst snd] in H4. now rewrite Hf in H4.
  Qed.

  Lemma stored_depth d fs f D :
    bt_sorted fs -> find_desc t d (fd_number f) = Some f ->
    (msg_depth (DM d fs) <= D)%nat -> (1 <= D)%nat -> (depth (fs_get t f fs) <= D)%nat.
  Proof.
    intros Hs Hf Hm HD. rewrite msg_depth_iff in Hm by assumption. cbn [dm_fields] in Hm.
    unfold fs_get, fs_get_value.
    pose proof (default_depth t f (find_desc_ok _ _ _ _ (proj1 Hwf) Hf)) as Hd.
    destruct (bt_get (fd_number f) fs) as [[|v|us]|] eqn:E.
    2: { specialize (Hm _ _ E). exact Hm. }
    all: destruct (is_msg_kind (fd_kind f)); lia.
  Qed.

  Lemma get_mut_get_self f fs : fs_get t f (fs_get_mut t f fs) = fs_get t f fs.
  Proof.
    unfold fs_get at 1, fs_get_value. rewrite get_mut_get, N.eqb_refl. reflexivity.
  Qed.

  Lemma ufs_depth_app a b : ufs_depth (a ++ b) = Nat.max (ufs_depth a) (ufs_depth b).
  Proof. induction a as [|u a IH]; cbn; [reflexivity|]. unfold ufs_depth in *. cbn. rewrite IH. lia. Qed.

  Lemma msg_step_good mv ctx d D num w m b :
    (forall f v, fdl_ok t f -> fdl_shape t f -> field_inv f D v ->
       good (field_inv f D) b (mv f v w ctx b)) ->
    (S ctx <= D)%nat -> tag_ok num -> bytes_ok b -> msg_inv d D m ->
    good (msg_inv d D) b (merge_msg_field t mv ctx m num w b).
  Proof.
    intros Hmv HD Hn Hb (Hd & Hok & Hdep). destruct m as [d0 fs]. cbn [dm_desc] in Hd. subst d0.
    pose proof (proj1 Hwf) as Ht.
    unfold merge_msg_field. cbn [dm_desc dm_fields].
    destruct (find_desc t d num) as [f|] eqn:Ef.
    - pose proof (find_desc_number _ _ _ _ Ht Ef) as En. subst num.
      pose proof (find_desc_ok _ _ _ _ Ht Ef) as Hfo.
      pose proof (find_desc_shape _ _ _ _ Hwf Ef) as Hfs.
      pose proof (mo_sorted _ _ Hok) as Hsorted. cbn [dm_fields] in Hsorted.
      unfold merge_into. cbn [dm_fields].
      specialize (Hmv f (fs_get t f (fs_get_mut t f fs)) Hfo Hfs).
      rewrite get_mut_get_self in Hmv. rewrite get_mut_get_self.
      assert (Hi : field_inv f D (fs_get t f fs)).
      { split; [eapply stored_ok; eassumption|].
        eapply stored_depth; try eassumption. lia. }
      specialize (Hmv Hi).
      assert (Hput : forall v, field_inv f D v ->
        msg_inv d D (with_fields (DM d fs) (fs_put f v (fs_get_mut t f fs)))).
      { intros v [Hv1 Hv2]. pose proof (assigned_put t f v fs Hsorted) as Ha.
        split; [reflexivity|]. split.
        - eapply assigned_ok; eassumption.
        - eapply assigned_depth with (v := v); eassumption. }
      destruct (mv f (fs_get t f fs) w ctx b) as [v r|e v| |]; cbn in Hmv |- *; auto.
      destruct Hmv as [H1 H2]. split; [apply Hput, H1|exact H2].
    - pose proof (uf_decode_value_good ctx num w b Hn Hb) as Hu. unfold uf_good in Hu.
      destruct (uf_decode_value ctx num w b) as [[u r]|e| |]; auto.
      2: { cbn. split; [reflexivity|]. split; assumption. }
      destruct Hu as (Hu1 & Hu2 & Hu3 & Hu4).
      destruct (add_unknown_ok _ _ _ _ _ Hok Ef Hu1 Hu2) as (fs' & E & Hok' & Hget).
      rewrite E. cbn. split; [|exact Hu4]. split; [reflexivity|]. split; [exact Hok'|].
      rewrite msg_depth_iff in Hdep |- * by (eapply mo_sorted in Hok, Hok'; assumption).
      cbn [dm_fields with_fields] in *. intros k s Hk. rewrite Hget in Hk.
      destruct (k =? num); [|eapply Hdep; eassumption].
      injection Hk as <-. cbn [depth_slot].
      destruct (bt_get num fs) as [[|v|us]|] eqn:Eb; cbn; try lia.
      rewrite ufs_depth_app. specialize (Hdep _ _ Eb). cbn in Hdep |- *. lia.
  Qed.

  Lemma dmap_good {A B} (g : A -> B) (I1 : A -> Prop) (I2 : B -> Prop) b d :
    (forall a, I1 a -> I2 (g a)) -> good I1 b d -> good I2 b (dmap g d).
  Proof. intros H. destruct d; cbn; intuition. Qed.

  Lemma msg_elem_inv k i D m :
    kind_msg k = Some i -> msg_inv i D m -> elem_inv k (S D) (VMessage m).
  Proof.
    intros Hk (H1 & H2 & H3). split.
    - rewrite ok_elem_msg, Hk, H1, Nat.eqb_refl. cbn. now apply ok_msg_iff.
    - rewrite depth_msg. lia.
  Qed.

  Lemma list_elem_depth vs D x : (list_max (map depth vs) <= D)%nat -> In x vs -> (depth x <= D)%nat.
  Proof.
    rewrite list_max_le_iff, Forall_forall. intros H Hin. apply H, in_map, Hin.
  Qed.

  Definition elem_good (n : nat) : Prop :=
    forall ctx f v w b D, fdl_ok t f -> fdl_shape t f -> bytes_ok b -> (S ctx <= D)%nat ->
      (2 * ctx + 1 <= n)%nat -> elem_inv (fd_kind f) D v ->
      good (elem_inv (fd_kind f) D) b (merge_value n t f v w ctx b) /\
      (fd_is_packable f = true ->
       forall v' r, merge_value n t f v w ctx b = DOk v' r -> (length r < length b)%nat).
  Definition field_good (n : nat) : Prop :=
    forall ctx f v w b D, fdl_ok t f -> fdl_shape t f -> bytes_ok b -> (S ctx <= D)%nat ->
      (2 * ctx + 2 <= n)%nat -> field_inv f D v ->
      good (field_inv f D) b (merge_value n t f v w ctx b).

  Lemma good_and {A} (I1 I2 : A -> Prop) b d :
    good I1 b d -> (forall a, I1 a -> I2 a) -> good (fun a => I1 a /\ I2 a) b d.
  Proof. destruct d; cbn; intuition. Qed.

  Lemma elem_good_S n : field_good n -> elem_good (S n).
  Proof.
    intros IH ctx f v w b D Hfo Hfs Hb HD Hn [Hv Hdep].
    destruct (kind_msg (fd_kind f)) as [i|] eqn:Ek.
    - destruct (ok_elem_msg_inv _ _ _ _ Ek Hv) as (m & -> & Hd & Hok).
      apply ok_msg_iff in Hok. rewrite depth_msg in Hdep.
      assert (Hbad : elem_inv (fd_kind f) D (VMessage m)).
      { split; [exact Hv|rewrite depth_msg; exact Hdep]. }
      split.
      2: { unfold fd_is_packable. intros Hp. destruct (fd_kind f); cbn in *; discriminate. }
      cbn [merge_value merge_body]. rewrite Ek.
      assert (Hstep : forall ctx', ctx = S ctx' -> forall s n' w' b', msg_inv i (pred D) s ->
         tag_ok n' -> bytes_ok b' ->
         good (msg_inv i (pred D)) b' (merge_msg_field t (merge_value n t) ctx' s n' w' b')).
      { intros ctx' -> s n' w' b' Hs Ht' Hb'. apply msg_step_good; auto; [|lia].
        intros f0 v0 Ho0 Hs0 Hi0. apply IH; auto; lia. }
      assert (Hm : msg_inv i (pred D) m) by (split; [exact Hd|split; [exact Hok|lia]]).
      assert (Hfin : forall s, msg_inv i (pred D) s -> elem_inv (fd_kind f) D (VMessage s)).
      { intros s Hs. replace D with (S (pred D)) by lia. eapply msg_elem_inv; eassumption. }
      destruct (fd_is_group f).
      + destruct (wt_eqb WStart w); [|exact Hbad]. cbn [negb].
        destruct ctx as [|ctx']; [exact Hbad|].
        apply dmap_good with (I1 := msg_inv i (pred D)); [exact Hfin|].
        apply group_loop_good with (L := length b); auto.
      + destruct (wt_eqb WLen w); [|exact Hbad]. cbn [negb].
        destruct ctx as [|ctx']; [exact Hbad|].
        apply dmap_good with (I1 := msg_inv i (pred D)); [exact Hfin|].
        apply merge_loop_good; auto.
        intros s b' Hs Hb' HL. eapply keyed_step_good with (L := length b'); auto.
    - assert (Hnm : is_msg_kind (fd_kind f) = false) by (unfold is_msg_kind; now rewrite Ek).
      pose proof (ok_elem_scalar _ _ _ Hnm Hv) as Hsc.
      destruct (merge_scalar_good _ _ w b Hsc Hb) as (d & E & Hg & Hl).
      assert (Em : merge_value (S n) t f v w ctx b = d).
      { destruct v; cbn [merge_value merge_body]; rewrite ?E; auto; cbn in Hsc; destruct (fd_kind f); discriminate. }
      rewrite Em. split.
      + eapply good_weaken; [|apply suffix_refl|exact Hg].
        intros v' Hv'. cbn beta in Hv'. split; [now apply sc_ok_elem|].
        rewrite (sc_depth _ _ Hv'). lia.
      + exact Hl.
  Qed.

  Lemma kind_default_inv f D : fdl_ok t f -> (1 <= D)%nat -> elem_inv (fd_kind f) D (kind_default t (fd_kind f)).
  Proof.
    intros Ho HD. split; [apply kind_default_ok, (fo_kind _ _ Ho)|].
    pose proof (kind_default_depth t (fd_kind f)) as H. destruct (is_msg_kind (fd_kind f)); lia.
  Qed.

  Lemma list_inv f D vs :
    fd_is_list f = true ->
    (field_inv f D (VList vs) <-> Forall (elem_inv (fd_kind f) D) vs).
  Proof.
    intros Hl. unfold field_inv. cbn [ok_field depth]. rewrite Hl. cbn [andb].
    rewrite forallb_forall, list_max_le_iff, !Forall_forall. split.
    - intros [H1 H2] x Hx. split; [now apply H1|apply H2, in_map, Hx].
    - intros H. split; [intros x Hx; apply H, Hx|].
      intros d Hd. apply in_map_iff in Hd. destruct Hd as (x & <- & Hx). apply H, Hx.
  Qed.

  Definition entry_inv (kf vf : fdl) (D : nat) (kv : mapkey * value) : Prop :=
    mk_okb (fd_kind kf) (fst kv) = true /\ elem_inv (fd_kind vf) D (snd kv).

  Lemma map_inv f e kf vf D kvs :
    kind_msg (fd_kind f) = Some e -> fd_is_map f = true ->
    entry_key t e = Some kf -> entry_value t e = Some vf ->
    (field_inv f D (VMap kvs) <-> keys_nodupb kvs = true /\ Forall (entry_inv kf vf D) kvs).
  Proof.
    intros H1 H2 H3 H4. unfold field_inv. cbn [ok_field depth]. rewrite H1, H2, H3, H4.
    rewrite andb_true_iff, forallb_forall, list_max_le_iff, !Forall_forall. split.
    - intros [[Ha Hb] Hc]. split; [exact Ha|]. intros kv Hin.
      specialize (Hb _ Hin). apply andb_true_iff in Hb. destruct Hb as [Hb1 Hb2].
      split; [exact Hb1|]. split; [exact Hb2|].
      apply Hc, in_map_iff. exists kv. auto.
    - intros [Ha Hb]. split; [split; [exact Ha|]|].
      + intros kv Hin. destruct (Hb _ Hin) as [Hb1 [Hb2 _]]. now rewrite Hb1, Hb2.
      + intros d Hd. apply in_map_iff in Hd. destruct Hd as (kv & <- & Hx). apply (Hb _ Hx).
  Qed.

  Lemma get_field_map d n f : get_field t d n = Some f -> is_repeated f = false -> fd_is_map f = false.
  Proof.
    intros H Hr. destruct (get_field_inv _ _ _ _ (proj1 Hwf) H) as (m & i & fi & _ & _ & -> & _).
    unfold is_repeated in Hr. cbn in *. unfold is_map_kind. now rewrite Hr.
  Qed.

  Lemma field_elem_inv f D v :
    fd_is_list f = false -> fd_is_map f = false -> (field_inv f D v <-> elem_inv (fd_kind f) D v).
  Proof.
    intros Hl Hm. unfold field_inv, elem_inv. destruct v; cbn [ok_field ok_elem];
      rewrite ?Hl, ?Hm; cbn [negb andb]; try tauto.
    destruct (kind_msg (fd_kind f)); intuition discriminate.
  Qed.

  Lemma nonrep_default vf D :
    fdl_ok t vf -> fdl_shape t vf -> fd_is_list vf = false -> fd_is_map vf = false -> (1 <= D)%nat ->
    elem_inv (fd_kind vf) D (fd_default_value t vf).
  Proof.
    intros Ho Hs Hl Hm HD. apply field_elem_inv; auto. split; [now apply default_ok|].
    pose proof (default_depth _ _ Ho). destruct (is_msg_kind (fd_kind vf)); lia.
  Qed.

  Lemma field_good_S n : elem_good n -> elem_good (S n) -> field_good (S n).
  Proof.
    intros IH IH' ctx f v w b D Hfo Hfs Hb HD Hn Hinv.
    destruct (fd_is_list f) eqn:El.
    - assert (Hp : exists vs, v = VList vs).
      { destruct Hinv as [Hv _]. destruct v; cbn [ok_field] in Hv; rewrite ?El in Hv;
          try discriminate; eauto.
        assert (Hm : fd_is_map f = false).
        { unfold fd_is_list in El. destruct (fd_is_map f); [|reflexivity].
          rewrite andb_false_r in El. discriminate. }
        rewrite Hm in Hv. destruct (kind_msg (fd_kind f)); discriminate. }
      destruct Hp as [vs ->]. pose proof (proj1 (list_inv f D vs El) Hinv) as Hvs.
      cbn [merge_value merge_body]. rewrite El.
      assert (Hd : elem_inv (fd_kind f) D (kind_default t (fd_kind f))) by (apply kind_default_inv; [exact Hfo|lia]).
      destruct (wt_eqb w WLen && fd_is_packable f) eqn:Ep.
      + apply dmap_good with (I1 := Forall (elem_inv (fd_kind f) D)).
        { intros a Ha. now apply list_inv. }
        apply merge_loop_good; auto. intros s b' Hs Hb' HL.
        destruct (IH ctx f _ (kind_wt (fd_kind f)) b' D Hfo Hfs Hb' HD ltac:(lia) Hd) as [Hg Hl].
        apply andb_true_iff in Ep. destruct Ep as [_ Ep]. specialize (Hl Ep).
        destruct (merge_value n t f (kind_default t (fd_kind f)) (kind_wt (fd_kind f)) ctx b')
          as [x r|e x| |]; cbn in Hg |- *; try contradiction.
        * split; [|intros s' r' [= <- <-]; eapply Hl; reflexivity].
          split; [|apply Hg]. apply Forall_app. split; [exact Hs|constructor; [apply Hg|constructor]].
        * split; [exact Hs|discriminate].
      + destruct (IH ctx f _ w b D Hfo Hfs Hb HD ltac:(lia) Hd) as [Hg _].
        destruct (merge_value n t f (kind_default t (fd_kind f)) w ctx b)
          as [x r|e x| |]; cbn in Hg |- *; try contradiction; auto.
        split; [|apply Hg]. apply list_inv; [exact El|].
        apply Forall_app. split; [exact Hvs|constructor; [apply Hg|constructor]].
    - destruct (fd_is_map f) eqn:Em.
      + destruct (fs_map _ _ Hfs Em) as (e & kf & vf & k0 & H1 & H2 & H3 & H4 & H5 & H6).
        assert (Hp : exists kvs, v = VMap kvs).
        { destruct Hinv as [Hv _]. destruct v; cbn [ok_field] in Hv; rewrite ?El, ?Em in Hv;
            try discriminate; eauto. }
        destruct Hp as [kvs ->].
        pose proof (proj1 (map_inv f e kf vf D kvs H1 Em H2 H3) Hinv) as [Hnd Hkvs].
        cbn [merge_value merge_body]. rewrite H1, Em, H2, H3, H4.
        pose proof (get_field_ok _ _ _ _ (proj1 Hwf) H3) as Hvo.
        pose proof (get_field_shape _ _ _ _ Hwf H3) as Hvs.
        pose proof (get_field_map _ _ _ H3 H6) as Hvm.
        assert (Hg : good (entry_inv kf vf D) b
          (merge_loop (keyed_step (fun kv num w' b0 =>
             if num =? MAP_KEY_NUMBER then
               dmap (fun k' => (k', snd kv)) (mk_merge (fd_kind kf) (fst kv) w' b0)
             else if num =? MAP_VALUE_NUMBER then
               dmap (fun v' => (fst kv, v')) (merge_value n t vf (snd kv) w' ctx b0)
             else match skip_field ctx w' num b0 with
                  | Ok r => DOk kv r
                  | Err e0 => DErr e0 kv
                  | Panic => DPanic
                  | Fuel => DFuel
                  end)) (k0, fd_default_value t vf) b)).
        { apply merge_loop_good; auto.
          - intros s b' Hs Hb' HL. eapply keyed_step_good with (L := length b'); auto.
            intros kv num w' b0 [Hk Hv] Hnum Hb0 HL0.
            destruct (num =? MAP_KEY_NUMBER).
            { eapply dmap_good; [|apply mk_merge_good; eassumption].
              intros k' Hk'. split; [exact Hk'|exact Hv]. }
            destruct (num =? MAP_VALUE_NUMBER).
            { eapply dmap_good; [|apply (IH ctx vf _ w' b0 D); auto; lia].
              intros v' Hv'. split; [exact Hk|exact Hv']. }
            pose proof (skip_field_good ctx w' num b0 Hb0) as Hsk.
            destruct (skip_field ctx w' num b0); cbn; auto.
            + split; [split; assumption|exact Hsk].
            + split; assumption.
          - split; [now apply mk_default_ok|]. apply nonrep_default; auto; [|lia].
            now apply is_list_repeated. }
        match goal with |- good _ _ (match ?d with _ => _ end) => destruct d as [[k' v'] r|e0 kv| |] end;
          cbn in Hg |- *; try contradiction; auto.
        destruct Hg as [[Hg1 Hg2] Hg3]. split; [|exact Hg3].
        apply (map_inv f e kf vf); auto. split; [now apply map_insert_nodup|].
        apply Forall_forall. intros kv Hin. apply map_insert_In in Hin.
        destruct Hin as [->|Hin]; [split; assumption|].
        rewrite Forall_forall in Hkvs. now apply Hkvs.
      + apply field_elem_inv in Hinv; auto.
        eapply good_weaken; [|apply suffix_refl|apply (IH' ctx f v w b D); auto; lia].
        intros v' Hv'. now apply field_elem_inv.
  Qed.

  Lemma merge_value_good n : elem_good n /\ field_good n.
  Proof.
    induction n as [|n [IH1 IH2]].
    - split; intros ctx f v w b D ? ? ? ? ?; lia.
    - pose proof (elem_good_S n IH2) as H. split; [exact H|]. now apply field_good_S.
  Qed.

  (** Merging any bytes into a valid message, with [n >= 202] levels of calls. *)
  Lemma msg_merge_good n d D m b :
    (2 * ctx0 + 2 <= n)%nat -> (S ctx0 <= D)%nat ->
    bytes_ok b -> msg_inv d D m ->
    match msg_merge_fuel n t m b with
    | DOk m' r => msg_inv d D m' /\ r = []
    | DErr _ m' => msg_inv d D m'
    | DPanic | DFuel => False
    end.
  Proof.
    intros Hn HD Hb Hm. unfold msg_merge_fuel.
    assert (Hg : good (msg_inv d D) b (stream_loop (length b) (merge_msg_field t (merge_value n t) ctx0) m b)).
    { apply stream_loop_good with (L := length b); auto.
      intros s num w b' Hs Htag Hb' HL. apply msg_step_good; auto.
      intros f v Ho Hsh Hi. apply (proj2 (merge_value_good n)); auto. }
    destruct (stream_loop _ _ m b) as [m' r|e m'| |] eqn:E; cbn in Hg; try contradiction; auto.
    split; [apply Hg|]. eapply stream_loop_rest; eassumption.
  Qed.
End Total.
