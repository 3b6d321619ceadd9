(** Map entries, packed lists and wire types: lemmas for C09, C10, C19. *)
From Verif Require Import Base BaseProofs Wire WireProofs LoopProofs Unknown UnknownProofs Value Descr
  Fields Codec DescrOk DescrProofs FieldsProofs LenProofs MergeProofs ExtendProofs RestrictProofs RecordProofs
  MergeRules RoundSpec RoundProofs RoundMain.
Open Scope N_scope.

(** ** skip_field passes over one whole record *)
Lemma skip_uf u : forall ctx rest, uf_ok u -> uf_len_ok u -> (uf_depth u < ctx)%nat ->
  skip_field ctx (uf_wire_type u) (uf_number u) (uf_body u ++ rest) = Ok rest.
Proof.
  induction u as [n v|n bs|n bs|n fs IH|n bs] using ufield_ind'; intros ctx rest Hok Hlen Hd;
    (destruct ctx as [|ctx]; [lia|]).
  - cbn [skip_field uf_number uf_wire_type uf_body]. rewrite decode_encode_varint by apply Hok. reflexivity.
  - destruct Hok as [_ [Hb HL]]. cbn [skip_field uf_number uf_wire_type uf_body].
    rewrite take_bytes_app by (rewrite HL; reflexivity). reflexivity.
  - cbn [skip_field uf_number uf_wire_type uf_body].
    rewrite read_write_delimited; [reflexivity|]. unfold uf_len_ok in Hlen. cbn [uf_encode] in Hlen.
    unfold write_delimited in Hlen. rewrite !app_length in Hlen. lia.
  - apply uf_ok_group in Hok. destruct Hok as [Ht Hok]. cbn [uf_depth] in Hd.
    cbn [skip_field uf_number uf_wire_type uf_body]. rewrite <- app_assoc.
    match goal with |- context [group_loop _ ?st _ _ _] => set (step := st) end.
    assert (He : forall l, (forall u, In u l -> In u fs) -> eats step tt (ufs_encode l) tt).
    { induction l as [|u l IHl]; intros Hin; [constructor|].
      cbn [ufs_encode flat_map]. rewrite uf_encode_body, <- app_assoc.
      assert (Hu : In u fs) by (apply Hin; left; reflexivity).
      rewrite Forall_forall in IH, Hok.
      eapply eats_cons with (s1 := tt).
      + apply uf_ok_tag, Hok, Hu.
      + apply uf_wire_type_not_end.
      + intros rest'. subst step. cbn beta.
        rewrite (IH u Hu); [reflexivity|apply Hok, Hu| |].
        * eapply uf_len_ok_group; eassumption.
        * apply uf_depth_In in Hu. unfold ufs_depth in Hu. lia.
      + apply IHl. intros u' Hu'. apply Hin. right; exact Hu'. }
    rewrite (group_loop_eats step n tt (ufs_encode fs) tt rest);
      [reflexivity| |exact Ht|lia].
    apply (He fs). auto.
  - destruct Hok as [_ [Hb HL]]. cbn [skip_field uf_number uf_wire_type uf_body].
    rewrite take_bytes_app by (rewrite HL; reflexivity). reflexivity.
Qed.

Lemma enc_scalar_bytes_ok k v w bs : sc_okb k v = true -> enc_scalar k v = Some (w, bs) -> bytes_ok bs.
Proof.
  intros Ho. destruct v; cbn [enc_scalar]; destruct k; intros H; try discriminate H;
    apply some_pair_inj in H; destruct H as [_ <-];
    first [apply encode_varint_ok | apply le_encode_ok | idtac].
  - apply write_delimited_ok. cbn in Ho. apply andb_true_iff in Ho. apply bytes_okb_ok, Ho.
  - apply write_delimited_ok. cbn in Ho. apply bytes_okb_ok, Ho.
Qed.

(** ** The items of a map entry *)

(** One record inside a map entry: a key, a value (a scalar, or the bytes of a
    message), or any other field. *)
Inductive eitem :=
| EKey (k : mapkey)
| EVal (v : value)
| ESub (s : bytes)
| EOther (u : ufield).

Definition item_ok (kf vf : fdl) (it : eitem) : Prop :=
  match it with
  | EKey k => mk_okb (fd_kind kf) k = true
  | EVal v => sc_okb (fd_kind vf) v = true
  | ESub s => bytes_ok s /\ exists i, fd_kind vf = KMessage i
  | EOther u => uf_ok u /\ uf_number u <> 1 /\ uf_number u <> 2 /\ (uf_depth u < 100)%nat
  end.
Definition item_bytes (kf vf : fdl) (it : eitem) : bytes :=
  match it with
  | EKey k => match mk_enc_scalar (fd_kind kf) k with Some (w, bs) => encode_key 1 w ++ bs | None => [] end
  | EVal v => match enc_scalar (fd_kind vf) v with Some (w, bs) => encode_key 2 w ++ bs | None => [] end
  | ESub s => encode_key 2 WLen ++ write_delimited s
  | EOther u => uf_encode u
  end.
Definition entry_keys (its : list eitem) : list mapkey :=
  flat_map (fun it => match it with EKey k => [k] | _ => [] end) its.
Definition entry_vals (its : list eitem) : list value :=
  flat_map (fun it => match it with EVal v => [v] | _ => [] end) its.
Definition entry_subs (its : list eitem) : list bytes :=
  flat_map (fun it => match it with ESub s => [s] | _ => [] end) its.

(** merging several byte strings one after the other *)
Fixpoint merge_each (ctx : nat) (t : tables) (m : dynmsg) (ss : list bytes) : option dynmsg :=
  match ss with
  | [] => Some m
  | s :: r => match merge_at ctx t m s with
              | DOk m' _ => merge_each ctx t m' r
              | _ => None
              end
  end.

Lemma last_cons {A} (a : A) l d : last (a :: l) d = last l a.
Proof.
  revert a d. induction l as [|b l IH]; intros a d; [reflexivity|].
  change (last (a :: b :: l) d) with (last (b :: l) d). rewrite !IH. reflexivity.
Qed.

Lemma sc_enc k v : sc_okb k v = true -> exists w bs, enc_scalar k v = Some (w, bs).
Proof. destruct v, k; cbn [sc_okb]; intros H; try discriminate H; do 2 eexists; reflexivity. Qed.

(** ** Packed and unpacked chunks of a list *)
Inductive lchunk :=
| Packed (xs : list value)
| Single (x : value).
Definition chunk_elems (c : lchunk) : list value := match c with Packed xs => xs | Single x => [x] end.
Definition scalar_bytes (k : kind) (x : value) : bytes :=
  match enc_scalar k x with Some (_, bs) => bs | None => [] end.
Definition chunk_bytes (n : N) (k : kind) (c : lchunk) : bytes :=
  match c with
  | Packed xs => encode_key n WLen ++ write_delimited (flat_map (scalar_bytes k) xs)
  | Single x => encode_key n (kind_wt k) ++ scalar_bytes k x
  end.

(** ** Wire types *)

(** the wire type of one value of a kind *)
Definition natural_wt (k : kind) : wt :=
  match k with
  | KGroup _ => WStart
  | k => kind_wt k
  end.

Lemma rd_wrong e w old r : wt_eqb e w = false -> rd e w old r = DErr EWireType old.
Proof. unfold rd. intros ->. reflexivity. Qed.
Lemma merge_scalar_wrong k v w b d :
  kind_wt k <> w -> merge_scalar k v w b = Some d ->
  exists v', d = DErr EWireType v' /\ (sc_okb k v = true -> sc_okb k v' = true).
Proof.
  intros Hw. assert (E : wt_eqb (kind_wt k) w = false).
  { destruct (wt_eqb (kind_wt k) w) eqn:E; [|reflexivity]. apply wt_eqb_eq in E. contradiction. }
  destruct v; cbn [merge_scalar]; destruct k; cbn [kind_wt] in E; intros H; try discriminate H;
    apply some_inj in H; subst d; (rewrite rd_wrong by exact E); eexists; (split; [reflexivity|]); auto.
Qed.

Section Entry.
  Variable t : tables.
  Hypothesis Hwf : wf t.
  Let Ht : tables_ok t := proj1 Hwf.

  Lemma entry_step_ext n kf vf ctx x s num w b :
    dext x b (entry_step t n kf vf ctx s num w b) (entry_step t n kf vf ctx s num w (b ++ x)).
  Proof.
    unfold entry_step. destruct (num =? MAP_KEY_NUMBER); [apply dext_dmap, mk_merge_ext|].
    destruct (num =? MAP_VALUE_NUMBER); [apply dext_dmap, merge_value_ext|].
    pose proof (skip_field_ext x ctx w num b) as K. destruct (skip_field ctx w num b); try (split; exact I).
    destruct K as [K1 ->]. split; [exact K1|reflexivity].
  Qed.
  Lemma entry_step_rev n kf vf ctx x s num w b :
    drev x (entry_step t n kf vf ctx s num w (b ++ x)) (entry_step t n kf vf ctx s num w b).
  Proof.
    unfold entry_step. destruct (num =? MAP_KEY_NUMBER); [apply drev_dmap, mk_merge_rev|].
    destruct (num =? MAP_VALUE_NUMBER); [apply drev_dmap, (proj1 (merge_value_rev t n))|].
    pose proof (skip_field_rev x ctx w num b) as K. destruct (skip_field ctx w num (b ++ x)); try exact I.
    intros r Hr. rewrite (K r Hr). reflexivity.
  Qed.

  (** a map record is its entry, read record by record *)
  Lemma map_record ctx m n w p f e kf vf k0 old :
    find_desc t (dm_desc m) n = Some f -> fd_is_map f = true ->
    kind_msg (fd_kind f) = Some e -> entry_key t e = Some kf -> entry_value t e = Some vf ->
    mk_default (fd_kind kf) = Some k0 -> get_field_value t m f = VMap old ->
    forall kvs,
    (exists m', merge_field ctx t m n w p = DOk m' [] /\ get_field_value t m' f = VMap kvs) <->
    (exists cs k v, read_delimited p = Ok (concat cs, []) /\
        runs (entry_step t 201 kf vf ctx) (k0, fd_default_value t vf) cs (k, v) /\
        kvs = map_insert k v old).
  Proof.
    intros Hf HM Hkm Ek Ev E0 Hg kvs.
    assert (Hbody : forall b, merge_value 202 t f (VMap old) w ctx b =
              match merge_loop (keyed_step (entry_step t 201 kf vf ctx)) (k0, fd_default_value t vf) b with
              | DOk (k', v') r => DOk (VMap (map_insert k' v' old)) r
              | DErr e _ => DErr e (VMap old) | DPanic => DPanic | DFuel => DFuel end).
    { intros b. rewrite mv202. cbn [merge_body]. rewrite Hkm, HM, Ek, Ev, E0. reflexivity. }
    pose proof (merge_loop_runs (entry_step t 201 kf vf ctx) (entry_step_ext 201 kf vf ctx) (entry_step_rev 201 kf vf ctx)) as ML.
    split.
    - intros (m' & H & Hg'). destruct (field_result t _ _ _ _ _ _ _ Hf H) as (v & Hv & Hv' & _).
      rewrite Hg, Hbody in Hv.
      destruct (merge_loop _ _ _) as [[k' v'] r|? ?| |] eqn:El; try discriminate Hv. injection Hv as <- <-.
      apply ML in El. destruct El as (body & cs & Hd & -> & Hr). exists cs, k', v'.
      split; [exact Hd|]. split; [exact Hr|]. congruence.
    - intros (cs & k & v & Hd & Hr & ->). apply field_result_conv; [exact Hf|]. rewrite Hg, Hbody.
      rewrite (proj2 (ML _ _ (k, v) [])); [reflexivity|]. exists (concat cs), cs. auto.
  Qed.

  (** *** Building the run of an entry from its items *)
  Lemma item_eats e kf vf it k v :
    entry_key t e = Some kf -> entry_value t e = Some vf -> is_repeated vf = false ->
    mk_okb (fd_kind kf) k = true -> ok_elem t v (fd_kind vf) = true -> item_ok kf vf it ->
    N.of_nat (length (item_bytes kf vf it)) < two64 ->
    match it with
    | EKey k' => eats (entry_step t 201 kf vf 100) (k, v) (item_bytes kf vf it) (k', v)
    | EVal v' => eats (entry_step t 201 kf vf 100) (k, v) (item_bytes kf vf it) (k, v')
    | ESub s => forall sub sub', v = VMessage sub -> merge_at 99 t sub s = DOk sub' [] ->
                  eats (entry_step t 201 kf vf 100) (k, v) (item_bytes kf vf it) (k, VMessage sub')
    | EOther _ => eats (entry_step t 201 kf vf 100) (k, v) (item_bytes kf vf it) (k, v)
    end.
  Proof.
    intros Ek Ev Hr Hk Hv Hit HL. destruct it as [k'|v'|s|u].
    - cbn [item_bytes item_ok] in *. pose proof (mk_value_ok (fd_kind kf) k') as Mv. rewrite Hit in Mv. symmetry in Mv.
      destruct (sc_enc _ _ Mv) as (w & bs & Es). rewrite <- mk_enc_value in Es. rewrite Es in *.
      rewrite app_length in HL.
      assert (Hw : w <> WEnd). { rewrite mk_enc_value in Es. apply enc_scalar_kind in Es. apply Es. }
      apply eats_one; [unfold tag_ok; lia|exact Hw|]. intros rest.
      unfold entry_step. change (1 =? MAP_KEY_NUMBER) with true. cbv iota. cbn [fst snd].
      rewrite (mk_round _ _ _ _ _ rest Hit Hk Es) by lia. reflexivity.
    - cbn [item_bytes item_ok] in *. destruct (sc_enc _ _ Hit) as (w & bs & Es). rewrite Es in *.
      rewrite app_length in HL. destruct (enc_scalar_kind _ _ _ _ Es) as [_ Hw].
      apply eats_one; [unfold tag_ok; lia|exact Hw|]. intros rest.
      unfold entry_step. change (2 =? MAP_KEY_NUMBER) with false. change (2 =? MAP_VALUE_NUMBER) with true.
      cbv iota. cbn [fst snd].
      assert (Sv : sc_okb (fd_kind vf) v = true).
      { apply (ok_elem_scalar t); [|exact Hv]. destruct v', (fd_kind vf); try discriminate Hit; reflexivity. }
      rewrite (scalar_merge t 200) by exact Sv.
      destruct (scalar_round _ _ _ _ v rest Hit Sv Es ltac:(lia)) as [_ ->]. reflexivity.
    - intros sub sub' -> Hs. cbn [item_bytes item_ok] in *. destruct Hit as [Hb [i Hi]].
      rewrite app_length in HL. unfold write_delimited in HL. rewrite app_length in HL.
      apply eats_one; [unfold tag_ok; lia|discriminate|]. intros rest.
      unfold entry_step. change (2 =? MAP_KEY_NUMBER) with false. change (2 =? MAP_VALUE_NUMBER) with true.
      cbv iota. cbn [fst snd].
      assert (Hos : ok_msg t sub = true).
      { rewrite ok_elem_msg, Hi in Hv. cbn [kind_msg] in Hv. apply andb_true_iff in Hv. apply Hv. }
      assert (E : merge_value 201 t vf (VMessage sub) WLen 100 (write_delimited s) = DOk (VMessage sub') []).
      { apply (sub_message t Hwf 201 99 vf i sub WLen (write_delimited s) sub' [] ltac:(lia) ltac:(lia) Hi Hos).
        - apply write_delimited_ok, Hb.
        - split; [reflexivity|]. exists s. split; [|exact Hs].
          rewrite <- (app_nil_r (write_delimited s)). apply read_write_delimited. lia. }
      destruct (merge_value_ext t 201 rest vf (VMessage sub) WLen 100%nat (write_delimited s)) as [_ D].
      rewrite E in D. cbn [dapp app] in D. rewrite D. reflexivity.
    - cbn [item_bytes item_ok] in *. destruct Hit as (Hu & N1 & N2 & Hd).
      rewrite uf_encode_body. apply eats_one; [apply uf_ok_tag, Hu|apply uf_wire_type_not_end|]. intros rest.
      unfold entry_step. replace (uf_number u =? MAP_KEY_NUMBER) with false by (unfold MAP_KEY_NUMBER; lia).
      replace (uf_number u =? MAP_VALUE_NUMBER) with false by (unfold MAP_VALUE_NUMBER; lia).
      rewrite skip_uf; [reflexivity|exact Hu|exact HL|exact Hd].
  Qed.

  Lemma items_eats e kf vf its : forall k v,
    entry_key t e = Some kf -> entry_value t e = Some vf -> is_repeated vf = false ->
    mk_okb (fd_kind kf) k = true -> ok_elem t v (fd_kind vf) = true -> Forall (item_ok kf vf) its ->
    N.of_nat (length (flat_map (item_bytes kf vf) its)) < two64 ->
    (is_msg_kind (fd_kind vf) = false ->
     eats (entry_step t 201 kf vf 100) (k, v) (flat_map (item_bytes kf vf) its)
          (last (entry_keys its) k, last (entry_vals its) v)) /\
    (forall sub sub', v = VMessage sub -> merge_each 99 t sub (entry_subs its) = Some sub' ->
     eats (entry_step t 201 kf vf 100) (k, v) (flat_map (item_bytes kf vf) its)
          (last (entry_keys its) k, VMessage sub')).
  Proof.
    induction its as [|it its IH]; intros k v Ek Ev Hr Hk Hv Hits HL.
    - cbn [flat_map entry_keys entry_vals last entry_subs]. split; [constructor|].
      intros sub sub' -> H. cbn in H. injection H as <-. constructor.
    - inversion_clear Hits as [|? ? Hit Hits']. cbn [flat_map] in *. rewrite app_length in HL.
      pose proof (item_eats e kf vf it k v Ek Ev Hr Hk Hv Hit ltac:(lia)) as H1.
      destruct it as [k'|v'|s|u].
      + assert (Hk' : mk_okb (fd_kind kf) k' = true) by exact Hit.
        destruct (IH k' v Ek Ev Hr Hk' Hv Hits' ltac:(lia)) as [IA IB].
        cbn [entry_keys entry_vals entry_subs flat_map app]. rewrite last_cons. split.
        * intros Hm. eapply eats_app; [exact H1|apply IA, Hm].
        * intros sub sub' E Hs. eapply eats_app; [exact H1|apply (IB sub sub' E Hs)].
      + assert (Hv' : ok_elem t v' (fd_kind vf) = true) by (apply sc_ok_elem, Hit).
        destruct (IH k v' Ek Ev Hr Hk Hv' Hits' ltac:(lia)) as [IA IB].
        cbn [entry_keys entry_vals entry_subs flat_map app]. rewrite last_cons. split.
        * intros Hm. eapply eats_app; [exact H1|apply IA, Hm].
        * intros sub sub' -> Hs. exfalso. cbn [item_ok] in Hit. rewrite ok_elem_msg in Hv.
          destruct v', (fd_kind vf); discriminate.
      + destruct Hit as [Hb [i Hi]]. cbn [entry_keys entry_vals entry_subs flat_map app]. split.
        * rewrite Hi. discriminate.
        * intros sub sub' -> Hs.
          assert (Hos : dm_desc sub = i /\ ok_msg t sub = true).
          { rewrite ok_elem_msg, Hi in Hv. cbn [kind_msg] in Hv. apply andb_true_iff in Hv.
            destruct Hv as [Hd Hv]. split; [apply Nat.eqb_eq, Hd|exact Hv]. }
          destruct Hos as [Hds Hos].
          cbn [merge_each] in Hs.
          destruct (merge_at 99 t sub s) as [sub1 r1|? ?| |] eqn:Hs1; try discriminate Hs.
          pose proof (proj1 (proj1 (merge_at_runs t _ _ _ _ _) Hs1)) as ->. rename Hs into Hs2.
          destruct (merge_at_ok t Hwf 99 sub s sub1 [] ltac:(lia) Hos Hb Hs1) as [Ho1 Hd1].
          assert (Hv1 : ok_elem t (VMessage sub1) (fd_kind vf) = true).
          { rewrite ok_elem_msg, Hi. cbn [kind_msg]. rewrite Ho1, Hd1, Hds, Nat.eqb_refl. reflexivity. }
          destruct (IH k (VMessage sub1) Ek Ev Hr Hk Hv1 Hits' ltac:(lia)) as [_ IB].
          eapply eats_app; [exact (H1 sub sub1 eq_refl Hs1)|exact (IB sub1 sub' eq_refl Hs2)].
      + destruct (IH k v Ek Ev Hr Hk Hv Hits' ltac:(lia)) as [IA IB].
        cbn [entry_keys entry_vals entry_subs flat_map app]. split.
        * intros Hm. eapply eats_app; [exact H1|apply IA, Hm].
        * intros sub sub' E Hs. eapply eats_app; [exact H1|apply (IB sub sub' E Hs)].
  Qed.

  Lemma step_eats ctx m n f v v' w body :
    tag_ok n -> w <> WEnd -> find_desc t (dm_desc m) n = Some f -> get_field_value t m f = v ->
    (forall rest, merge_value 202 t f v w ctx (body ++ rest) = DOk v' rest) ->
    exists m', eats (merge_field ctx t) m (encode_key n w ++ body) m' /\
      get_field_value t m' f = v' /\ dm_desc m' = dm_desc m.
  Proof.
    intros Hn Hw Hf Hg Hm.
    exists (with_fields m (fs_put f v' (fs_get_mut t f (dm_fields m)))). split; [|split; [|reflexivity]].
    - apply eats_one; [exact Hn|exact Hw|]. intros rest.
      unfold merge_field, merge_msg_field. rewrite Hf. unfold merge_into. rewrite get_mut_get_self.
      unfold get_field_value in Hg. rewrite Hg, Hm. reflexivity.
    - unfold get_field_value, fs_get, fs_get_value. cbn [dm_fields with_fields]. unfold fs_put.
      rewrite bt_get_set_same. reflexivity.
  Qed.

  Lemma flat_rcat k xs : (forall x, In x xs -> sc_okb k x = true) -> is_packable k = true ->
    rcat (fun x => of_opt (enc_packed k x)) xs = Ok (flat_map (scalar_bytes k) xs).
  Proof.
    induction xs as [|x xs IH]; intros H Hp; [reflexivity|].
    cbn [rcat flat_map].
    assert (E : enc_packed k x = Some (scalar_bytes k x)).
    { specialize (H x (or_introl eq_refl)). unfold scalar_bytes.
      destruct x, k; try discriminate H; try discriminate Hp; cbn [enc_packed enc_scalar];
        first [reflexivity | rewrite from_sint32_zigzag; reflexivity | rewrite from_sint64_zigzag; reflexivity]. }
    rewrite E. cbn [of_opt rbind]. change (rcat _ xs) with (rcat (fun x => of_opt (enc_packed k x)) xs).
    rewrite IH; auto. intros y Hy. apply H. right; exact Hy.
  Qed.

  Lemma chunk_eats m n f old c :
    find_desc t (dm_desc m) n = Some f -> fd_is_list f = true -> is_packable (fd_kind f) = true ->
    get_field_value t m f = VList old -> (forall x, In x (chunk_elems c) -> sc_okb (fd_kind f) x = true) ->
    N.of_nat (length (chunk_bytes n (fd_kind f) c)) < two64 ->
    exists m', eats (merge_field 100 t) m (chunk_bytes n (fd_kind f) c) m' /\
      get_field_value t m' f = VList (old ++ chunk_elems c) /\ dm_desc m' = dm_desc m.
  Proof.
    intros Hf HL Hp Hg Hx Hlen.
    pose proof (find_desc_ok _ _ _ _ Ht Hf) as Hfo. pose proof (find_desc_number _ _ _ _ Ht Hf) as Nf.
    assert (Hn : tag_ok n) by (rewrite <- Nf; apply (fo_tag _ _ Hfo)).
    assert (Hsc : is_msg_kind (fd_kind f) = false) by (destruct (fd_kind f); try discriminate Hp; reflexivity).
    pose proof (kind_default_sc t _ (fo_kind _ _ Hfo) Hsc) as Hd0.
    assert (Hwl : forall w, w = kind_wt (fd_kind f) -> wt_eqb w WLen = false)
      by (intros w ->; destruct (fd_kind f); try discriminate Hp; reflexivity).
    destruct c as [xs|x]; cbn [chunk_bytes chunk_elems] in *.
    - rewrite app_length in Hlen. unfold write_delimited in Hlen. rewrite app_length in Hlen.
      apply (step_eats 100 m n f (VList old)); auto; [discriminate|]. intros rest.
      rewrite mv202. cbn [merge_body]. rewrite HL. cbn [wt_eqb andb]. unfold fd_is_packable. rewrite Hp.
      change (wt_num WLen =? wt_num WLen) with true. cbn [andb].
      unfold merge_loop, write_delimited. rewrite <- app_assoc, decode_encode_varint by lia.
      set (body := flat_map (scalar_bytes (fd_kind f)) xs) in *.
      replace (N.of_nat (length (body ++ rest)) <? N.of_nat (length body)) with false
        by (rewrite app_length; lia).
      replace (length (body ++ rest) - N.to_nat (N.of_nat (length body)))%nat with (length rest)
        by (rewrite app_length; lia).
      rewrite (packed_loop _ (enc_packed (fd_kind f)) (fun vs x => vs ++ [x]) xs) with (body := body).
      + cbn [dmap]. rewrite fold_app_map. reflexivity.
      + intros s x bs r Hin He Hb. pose proof (packed_scalar _ _ _ He) as Es.
        rewrite (scalar_merge t 200) by exact Hd0.
        destruct (scalar_round _ _ _ _ (kind_default t (fd_kind f)) r (Hx x Hin) Hd0 Es Hb) as [_ ->]. reflexivity.
      + intros x bs _ He. eapply packed_nonempty; exact He.
      + apply flat_rcat; assumption.
      + lia.
      + lia.
    - assert (Sx : sc_okb (fd_kind f) x = true) by (apply Hx; left; reflexivity).
      destruct (sc_enc _ _ Sx) as (w & bs & Es). destruct (enc_scalar_kind _ _ _ _ Es) as [Ew Hwe].
      pose proof (Hwl w Ew) as Hwl'. unfold scalar_bytes in *. rewrite Es in *. rewrite <- Ew in Hlen |- *. rewrite app_length in Hlen.
      apply (step_eats 100 m n f (VList old)); auto. intros rest.
      rewrite mv202. cbn [merge_body]. rewrite HL, Hwl'. cbn [andb].
      rewrite (scalar_merge t 200) by exact Hd0.
      destruct (scalar_round _ _ _ _ (kind_default t (fd_kind f)) rest Sx Hd0 Es ltac:(lia)) as [_ ->]. reflexivity.
  Qed.

  Lemma chunks_eats n f cs : forall m old,
    find_desc t (dm_desc m) n = Some f -> fd_is_list f = true -> is_packable (fd_kind f) = true ->
    get_field_value t m f = VList old ->
    (forall x, In x (flat_map chunk_elems cs) -> sc_okb (fd_kind f) x = true) ->
    N.of_nat (length (flat_map (chunk_bytes n (fd_kind f)) cs)) < two64 ->
    exists m', eats (merge_field 100 t) m (flat_map (chunk_bytes n (fd_kind f)) cs) m' /\
      get_field_value t m' f = VList (old ++ flat_map chunk_elems cs).
  Proof.
    induction cs as [|c cs IH]; intros m old Hf HL Hp Hg Hx Hlen.
    - exists m. split; [constructor|]. cbn. rewrite app_nil_r. exact Hg.
    - cbn [flat_map] in *. rewrite app_length in Hlen.
      destruct (chunk_eats m n f old c Hf HL Hp Hg) as (m1 & H1 & G1 & D1);
        [intros x Hin; apply Hx, in_or_app; left; exact Hin|lia|].
      destruct (IH m1 (old ++ chunk_elems c)) as (m2 & H2 & G2);
        [rewrite D1; exact Hf|assumption|assumption|exact G1
         |intros x Hin; apply Hx, in_or_app; right; exact Hin|lia|].
      exists m2. split; [eapply eats_app; eassumption|]. rewrite app_assoc. exact G2.
  Qed.

  Lemma chunks_bytes_ok n k cs :
    (forall x, In x (flat_map chunk_elems cs) -> sc_okb k x = true) ->
    bytes_ok (flat_map (chunk_bytes n k) cs).
  Proof.
    assert (Hs : forall x, sc_okb k x = true -> bytes_ok (scalar_bytes k x)).
    { intros x Hx. unfold scalar_bytes. destruct (enc_scalar k x) as [[w bs]|] eqn:E; [|constructor].
      eapply enc_scalar_bytes_ok; eassumption. }
    induction cs as [|c cs IH]; intros H; [constructor|]. cbn [flat_map] in *. apply bytes_ok_app. split.
    - assert (Hc : forall x, In x (chunk_elems c) -> sc_okb k x = true)
        by (intros x Hx; apply H, in_or_app; left; exact Hx).
      destruct c as [xs|x]; cbn [chunk_bytes chunk_elems] in *; apply bytes_ok_app; (split; [apply encode_key_ok|]).
      + apply write_delimited_ok. clear H IH. induction xs as [|x xs IHx]; [constructor|].
        cbn [flat_map]. apply bytes_ok_app. split; [apply Hs, Hc; left; reflexivity|].
        apply IHx. intros y Hy. apply Hc. right; exact Hy.
      + apply Hs, Hc. left; reflexivity.
    - apply IH. intros x Hx. apply H, in_or_app. right; exact Hx.
  Qed.

  (** *** A record with the wrong wire type *)
  Lemma elem_wrong j ctx f v w p :
    ok_elem t v (fd_kind f) = true -> natural_wt (fd_kind f) <> w ->
    exists v', merge_value (S j) t f v w ctx p = DErr EWireType v'.
  Proof.
    intros Hv Hw. destruct (is_msg_kind (fd_kind f)) eqn:Em.
    - unfold is_msg_kind in Em. destruct (kind_msg (fd_kind f)) as [i|] eqn:Ek; [|discriminate].
      destruct (ok_elem_msg_inv t v (fd_kind f) i Ek Hv) as (m & -> & _ & _).
      assert (E : wt_eqb (natural_wt (fd_kind f)) w = false).
      { destruct (wt_eqb _ w) eqn:E; [|reflexivity]. apply wt_eqb_eq in E. contradiction. }
      exists (VMessage m). cbn [merge_value merge_body]. unfold fd_is_group.
      destruct (fd_kind f); try discriminate Ek; cbn [kind_msg natural_wt kind_wt] in *; rewrite E; reflexivity.
    - pose proof (ok_elem_scalar t v (fd_kind f) Em Hv) as Hs.
      rewrite (scalar_merge t j) by exact Hs.
      assert (Hw' : kind_wt (fd_kind f) <> w) by (destruct (fd_kind f); try discriminate Em; exact Hw).
      assert (E : exists d, merge_scalar (fd_kind f) v w p = Some d)
        by (destruct v, (fd_kind f); try discriminate Hs; eexists; reflexivity).
      destruct E as [d E]. rewrite E. destruct (merge_scalar_wrong _ _ _ _ _ Hw' E) as [v' [-> _]]. eexists; reflexivity.
  Qed.

  Lemma field_wrong ctx m n w p f :
    ok_msg t m = true -> find_desc t (dm_desc m) n = Some f -> fd_is_map f = false ->
    natural_wt (fd_kind f) <> w -> ~ (w = WLen /\ fd_is_list f = true /\ is_packable (fd_kind f) = true) ->
    exists m', merge_field ctx t m n w p = DErr EWireType m'.
  Proof.
    intros Hm Hf HM Hw Hpk. pose proof (stored_value t Hwf _ _ _ Hm Hf) as Hst.
    assert (E : exists v', merge_value 202 t f (get_field_value t m f) w ctx p = DErr EWireType v').
    { destruct (fd_is_list f) eqn:HL.
      - destruct (list_value t _ _ HL Hst) as (vs & -> & _). rewrite mv202. cbn [merge_body]. rewrite HL.
        assert (Ep : wt_eqb w WLen && fd_is_packable f = false).
        { destruct (wt_eqb w WLen) eqn:E1; [|reflexivity]. apply wt_eqb_eq in E1.
          unfold fd_is_packable. destruct (is_packable (fd_kind f)) eqn:E2; [|reflexivity].
          exfalso. apply Hpk. auto. }
        rewrite Ep.
        destruct (elem_wrong 200 ctx f (kind_default t (fd_kind f)) w p) as [v' ->]; [|exact Hw|].
        + apply kind_default_ok, (fo_kind _ _ (find_desc_ok _ _ _ _ Ht Hf)).
        + eexists; reflexivity.
      - apply (elem_wrong 201); [|exact Hw].
        destruct (get_field_value t m f) eqn:Ev;
          try (cbn [ok_field] in Hst; rewrite !andb_true_iff in Hst; destruct Hst as [_ Hst]; exact Hst).
        + cbn [ok_field] in Hst. rewrite HL in Hst. discriminate.
        + cbn [ok_field] in Hst. rewrite HM in Hst. destruct (kind_msg (fd_kind f)); discriminate. }
    destruct E as [v' E]. unfold merge_field, merge_msg_field. rewrite Hf. unfold merge_into.
    rewrite get_mut_get_self. change (fs_get t f (dm_fields m)) with (get_field_value t m f). rewrite E.
    eexists; reflexivity.
  Qed.

  (** inside a map entry *)
  Lemma entry_wrong ctx kf vf kv num w p :
    mk_okb (fd_kind kf) (fst kv) = true -> ok_elem t (snd kv) (fd_kind vf) = true ->
    (num = 1 -> w <> natural_wt (fd_kind kf)) -> (num = 2 -> w <> natural_wt (fd_kind vf)) ->
    num = 1 \/ num = 2 ->
    exists kv', entry_step t 201 kf vf ctx kv num w p = DErr EWireType kv'.
  Proof.
    intros Hk Hv W1 W2 [-> | ->].
    - specialize (W1 eq_refl). unfold entry_step. change (1 =? MAP_KEY_NUMBER) with true. cbv iota.
      unfold mk_merge. rewrite mk_value_ok in Hk.
      assert (Hw' : kind_wt (fd_kind kf) <> w).
      { destruct kv as [[] ?], (fd_kind kf); try discriminate Hk; intros E; apply W1; symmetry; exact E. }
      assert (E : exists d, merge_scalar (fd_kind kf) (mk_value (fst kv)) w p = Some d)
        by (destruct kv as [[] ?], (fd_kind kf); try discriminate Hk; eexists; reflexivity).
      destruct E as [d E]. rewrite E. destruct (merge_scalar_wrong _ _ _ _ _ Hw' E) as [v' [-> Hv']].
      rewrite <- mk_value_ok in Hk. pose proof Hk as Hk1. rewrite mk_value_ok in Hk1.
      destruct (value_mk_ok _ _ _ Hk (Hv' Hk1)) as (k' & -> & _). eexists; reflexivity.
    - specialize (W2 eq_refl). unfold entry_step. change (2 =? MAP_KEY_NUMBER) with false.
      change (2 =? MAP_VALUE_NUMBER) with true. cbv iota.
      destruct (elem_wrong 200 ctx vf (snd kv) w p Hv) as [v' ->]; [congruence|]. eexists; reflexivity.
  Qed.
End Entry.
