(** The round trip: decoding the encoding of a message gives its normal form. *)
From Verif Require Import Base BaseProofs Wire WireProofs LoopProofs Unknown UnknownProofs
  Value Descr Fields Codec DescrOk DescrProofs FieldsProofs LenProofs MergeProofs RoundSpec RoundProofs.

Lemma bt_set_set {A} k (v1 v2 : A) l : bt_sorted l -> bt_set k v2 (bt_set k v1 l) = bt_set k v2 l.
Proof.
  intros H. apply bt_ext; try (repeat apply bt_set_sorted; exact H).
  intros k'. destruct (N.eq_dec k' k) as [->|Hn].
  - rewrite !bt_get_set_same. reflexivity.
  - rewrite !bt_get_set_other by exact Hn. reflexivity.
Qed.

Lemma rcat_cons {A} (g : A -> res bytes) a l b :
  rcat g (a :: l) = Ok b -> exists x y, g a = Ok x /\ rcat g l = Ok y /\ b = x ++ y.
Proof.
  intros H. cbn in H. apply rbind_ok in H. destruct H as (x & E & H). apply rbind_ok in H.
  destruct H as (y & E2 & H). injection H as <-. eauto.
Qed.

Section Round.
  Variable t : tables.
  Hypothesis Hwf : wf t.
  Let Ht : tables_ok t := proj1 Hwf.

  Definition no_siblings (f : fdl) (fs : fieldset) : Prop :=
    forall k, sibling f k -> bt_get k fs = None.

  Lemma merge_into_eq mv f d fs w ctx buf v r :
    bt_sorted fs -> no_siblings f fs ->
    mv f (fs_get t f fs) w ctx buf = DOk v r ->
    merge_into t mv f (DM d fs) w ctx buf = DOk (DM d (bt_set (fd_number f) (SVal v) fs)) r.
  Proof.
    intros Hs Hn H. unfold merge_into. cbn [dm_fields]. rewrite get_mut_get_self, H.
    f_equal. unfold with_fields. cbn [dm_desc]. f_equal.
    apply bt_ext.
    - apply put_sorted, get_mut_sorted, Hs.
    - apply bt_set_sorted, Hs.
    - intros k. unfold fs_put. destruct (N.eq_dec k (fd_number f)) as [->|Hk].
      + rewrite !bt_get_set_same. reflexivity.
      + rewrite !bt_get_set_other by exact Hk. rewrite get_mut_get.
        destruct (k =? fd_number f) eqn:E; [lia|].
        destruct (siblingb f k) eqn:Es; [|reflexivity].
        apply siblingb_ok in Es. symmetry. apply Hn, Es.
  Qed.

  Definition start (k : kind) (v0 : value) : Prop :=
    match kind_msg k with
    | Some i => v0 = VMessage (new_msg i)
    | None => sc_okb k v0 = true
    end.

  Lemma kind_default_start f : fdl_ok t f -> start (fd_kind f) (kind_default t (fd_kind f)).
  Proof.
    intros H. pose proof (kind_default_sc t (fd_kind f) (fo_kind _ _ H)) as K.
    unfold start. destruct (fd_kind f); cbn in *; try reflexivity; apply K; reflexivity.
  Qed.

  Lemma default_start f :
    fdl_ok t f -> fd_is_list f = false -> fd_is_map f = false ->
    start (fd_kind f) (fd_default_value t f).
  Proof.
    intros H HL HM. unfold fd_default_value. rewrite HL, HM.
    destruct (fd_default f) as [v|] eqn:E; [|apply kind_default_start, H].
    apply (fo_default _ _ H) in E. unfold start.
    destruct v, (fd_kind f); try discriminate E; exact E.
  Qed.

  Definition elem_round (v : value) : Prop :=
    forall f n ctx chunk,
      fdl_ok t f -> ok_elem t v (fd_kind f) = true -> (depth v <= ctx)%nat ->
      (2 * ctx + 1 <= n)%nat -> omitted t f v = false ->
      enc_value t v f = Ok chunk -> N.of_nat (length chunk) < two64 ->
      exists w body, chunk = encode_key (fd_number f) w ++ body /\ w <> WEnd /\
        (wt_eqb w WLen && fd_is_packable f = false) /\
        forall v0 rest, start (fd_kind f) v0 ->
          merge_value n t f v0 w ctx (body ++ rest) = DOk (norm t v f) rest.

  Definition field_round (v : value) : Prop :=
    forall f d n ctx chunk fs0,
      find_desc t d (fd_number f) = Some f -> ok_field t f v = true -> (depth v <= ctx)%nat ->
      (2 * ctx + 2 <= n)%nat -> fd_has t f v = true ->
      enc_value t v f = Ok chunk -> N.of_nat (length chunk) < two64 ->
      bt_sorted fs0 -> bt_get (fd_number f) fs0 = None -> no_siblings f fs0 ->
      eats (merge_msg_field t (merge_value n t) ctx) (DM d fs0) chunk
           (DM d (bt_set (fd_number f) (SVal (norm t v f)) fs0)).

  Lemma has_omitted f v : fd_has t f v = negb (omitted t f v).
  Proof. unfold fd_has, omitted. destruct (fd_presence f), (is_default_for t f v); reflexivity. Qed.

  Lemma scalar_elem v : scalar v = true -> elem_round v.
  Proof.
    intros Hs f n ctx chunk Hf Hok Hd Hn Hom He HL.
    assert (E : enc_value t v f = (if omitted t f v then Ok [] else
       let! wb := of_opt (enc_scalar (fd_kind f) v) in
         Ok (encode_key (fd_number f) (fst wb) ++ snd wb))).
    { destruct v; try discriminate Hs; reflexivity. }
    rewrite Hom in E. rewrite E in He. clear E.
    destruct (enc_scalar (fd_kind f) v) as [[w bs]|] eqn:Es; [|discriminate He].
    cbn [of_opt rbind fst snd] in He. injection He as <-.
    destruct (enc_scalar_kind _ _ _ _ Es) as [Hw Hw2].
    exists w, bs. split; [reflexivity|]. split; [exact Hw2|].
    assert (Hsc : sc_okb (fd_kind f) v = true) by (destruct v; try discriminate Hs; exact Hok).
    split.
    { unfold fd_is_packable. subst w. destruct (fd_kind f); reflexivity. }
    intros v0 rest Hv0. destruct n as [|n]; [lia|].
    assert (Hk : kind_msg (fd_kind f) = None).
    { destruct v, (fd_kind f); try discriminate Hsc; reflexivity. }
    unfold start in Hv0. rewrite Hk in Hv0. rewrite app_length in HL.
    destruct (scalar_round _ _ _ _ _ rest Hsc Hv0 Es ltac:(lia)) as [_ Hm].
    replace (norm t v f) with v by (destruct v; try discriminate Hs; reflexivity).
    cbn [merge_value]. unfold merge_body.
    destruct v0; try (rewrite Hm; reflexivity); destruct (fd_kind f); discriminate Hv0.
  Qed.

  Lemma elem_field v : plain v = true -> elem_round v -> field_round v.
  Proof.
    intros Hp Hel f d n ctx chunk fs0 Hf Hok Hd Hn Hhas He HL Hs Hfresh Hsib.
    rewrite ok_field_plain in Hok by exact Hp. rewrite !andb_true_iff, !negb_true_iff in Hok.
    destruct Hok as [[HnL HnM] Hok].
    pose proof (find_desc_ok _ _ _ _ Ht Hf) as Hfo.
    destruct (Hel f n ctx chunk Hfo Hok Hd ltac:(lia)) as (w & body & -> & Hw & _ & Hm); auto.
    { rewrite has_omitted in Hhas. now destruct (omitted t f v). }
    apply eats_one; [apply (fo_tag _ _ Hfo)|exact Hw|]. intros rest.
    unfold merge_msg_field. cbn [dm_desc]. rewrite Hf. apply merge_into_eq; auto.
    apply Hm. unfold fs_get, fs_get_value. rewrite Hfresh. apply default_start; assumption.
  Qed.

  (** *** Lists *)

  Lemma list_step f d fs n ctx w body rest pre x :
    find_desc t d (fd_number f) = Some f -> fd_is_list f = true ->
    bt_sorted fs -> no_siblings f fs -> fs_get t f fs = VList pre ->
    wt_eqb w WLen && fd_is_packable f = false ->
    merge_value n t f (kind_default t (fd_kind f)) w ctx (body ++ rest) = DOk x rest ->
    merge_msg_field t (merge_value (S n) t) ctx (DM d fs) (fd_number f) w (body ++ rest)
    = DOk (DM d (bt_set (fd_number f) (SVal (VList (pre ++ [x]))) fs)) rest.
  Proof.
    intros Hf HL Hs Hn Hg Hw Hm. unfold merge_msg_field. cbn [dm_desc]. rewrite Hf.
    apply merge_into_eq; auto. rewrite Hg. cbn [merge_value merge_body].
    rewrite HL, Hw, Hm. reflexivity.
  Qed.

  Lemma no_siblings_set f fs v : no_siblings f fs -> no_siblings f (bt_set (fd_number f) v fs).
  Proof.
    intros H k Hk. rewrite bt_get_set_other; [apply H, Hk|]. destruct Hk as (? & _ & _ & ?). assumption.
  Qed.

  Lemma fs_get_set f fs v : fs_get t f (bt_set (fd_number f) (SVal v) fs) = v.
  Proof. unfold fs_get, fs_get_value. rewrite bt_get_set_same. reflexivity. Qed.

  Lemma fd_default_list f : fd_is_list f = true -> fd_default_value t f = VList [].
  Proof. intros H. unfold fd_default_value. rewrite H. reflexivity. Qed.

  Lemma not_omitted_elem f x :
    fd_is_list f = true -> plain x = true -> omitted t f x = false.
  Proof.
    intros HL Hp. unfold omitted, is_default_for. rewrite (fd_default_list _ HL).
    destruct x; try discriminate Hp; cbn; apply andb_false_r.
  Qed.

  Lemma unpacked_round f d n ctx vs : forall chunk fs0 pre,
    find_desc t d (fd_number f) = Some f -> fd_is_list f = true ->
    Forall elem_round vs -> forallb (fun x => ok_elem t x (fd_kind f)) vs = true ->
    (list_max (map depth vs) <= ctx)%nat -> (2 * ctx + 1 <= n)%nat ->
    rcat (fun x => enc_value t x f) vs = Ok chunk -> N.of_nat (length chunk) < two64 ->
    bt_sorted fs0 -> no_siblings f fs0 -> fs_get t f fs0 = VList pre -> vs <> [] ->
    eats (merge_msg_field t (merge_value (S n) t) ctx) (DM d fs0) chunk
         (DM d (bt_set (fd_number f) (SVal (VList (pre ++ map (fun x => norm t x f) vs))) fs0)).
  Proof.
    induction vs as [|x vs IH]; intros chunk fs0 pre Hf HL Hel Hok Hd Hn He Hlen Hs Hsib Hg Hne;
      [congruence|].
    apply rcat_cons in He. destruct He as (cx & cr & Ex & Er & ->).
    rewrite app_length in Hlen. inversion_clear Hel as [|? ? Hx Hvs].
    cbn [forallb] in Hok. apply andb_true_iff in Hok. destruct Hok as [Hokx Hok].
    cbn [map list_max fold_right] in Hd. change (fold_right Init.Nat.max 0%nat) with list_max in Hd.
    pose proof (find_desc_ok _ _ _ _ Ht Hf) as Hfo.
    destruct (Hx f n ctx cx) as (w & body & -> & Hw & Hpk & Hm); auto; try lia.
    { apply not_omitted_elem; [exact HL|eapply ok_elem_plain; exact Hokx]. }
    assert (Hstep : eats (merge_msg_field t (merge_value (S n) t) ctx) (DM d fs0)
              (encode_key (fd_number f) w ++ body)
              (DM d (bt_set (fd_number f) (SVal (VList (pre ++ [norm t x f]))) fs0))).
    { apply eats_one; [apply (fo_tag _ _ Hfo)|exact Hw|]. intros rest.
      apply list_step; auto. apply Hm. apply kind_default_start, Hfo. }
    eapply eats_app; [exact Hstep|].
    destruct vs as [|y vs].
    { cbn in Er. injection Er as <-. apply eats_nil. }
    set (fs1 := bt_set (fd_number f) (SVal (VList (pre ++ [norm t x f]))) fs0).
    replace (bt_set (fd_number f) (SVal (VList (pre ++ map (fun x0 => norm t x0 f) (x :: y :: vs)))) fs0)
      with (bt_set (fd_number f) (SVal (VList ((pre ++ [norm t x f]) ++ map (fun x0 => norm t x0 f) (y :: vs)))) fs1).
    2: { unfold fs1. rewrite bt_set_set by exact Hs. rewrite <- app_assoc. reflexivity. }
    apply IH; auto; try lia.
    - apply bt_set_sorted, Hs.
    - apply no_siblings_set, Hsib.
    - apply fs_get_set.
    - discriminate.
  Qed.

  Lemma packed_loop {S} (step : S -> bytes -> dres S) (enc : value -> option bytes)
      (upd : S -> value -> S) xs :
    (forall s x bs rest, In x xs -> enc x = Some bs -> N.of_nat (length bs) < two64 ->
       step s (bs ++ rest) = DOk (upd s x) rest) ->
    (forall x bs, In x xs -> enc x = Some bs -> (1 <= length bs)%nat) ->
    forall body s rest k,
      rcat (fun x => of_opt (enc x)) xs = Ok body -> N.of_nat (length body) < two64 ->
      (length (body ++ rest) <= k)%nat ->
      loop_until k step (length rest) s (body ++ rest) = DOk (fold_left upd xs s) rest.
  Proof.
    induction xs as [|x xs IH]; intros Hstep Hne body s rest k He HL Hk.
    - cbn in He. injection He as <-. cbn [app fold_left].
      destruct k; cbn [loop_until]; rewrite Nat.leb_refl, Nat.eqb_refl; reflexivity.
    - apply rcat_cons in He. destruct He as (cx & cr & Ex & Er & ->).
      destruct (enc x) as [bs|] eqn:E; [|discriminate Ex]. injection Ex as <-.
      pose proof (Hne x bs (or_introl eq_refl) E) as Hb.
      rewrite app_length in HL. rewrite <- app_assoc in *. rewrite app_length in Hk.
      destruct k as [|k]; [lia|]. cbn [loop_until].
      destruct (length (bs ++ cr ++ rest) <=? length rest)%nat eqn:El.
      { rewrite !app_length in El. lia. }
      rewrite (Hstep s x bs _ (or_introl eq_refl) E) by lia. cbn [fold_left]. apply IH; try lia.
      + intros s0 y b r Hy. apply Hstep. right; exact Hy.
      + intros y b Hy. apply Hne. right; exact Hy.
      + exact Er.
  Qed.

  Lemma fold_app_map (xs pre : list value) :
    fold_left (fun s x => s ++ [x]) xs pre = pre ++ xs.
  Proof.
    revert pre. induction xs as [|x xs IH]; intros pre; cbn; [now rewrite app_nil_r|].
    rewrite IH, <- app_assoc. reflexivity.
  Qed.

  Lemma list_field vs : Forall elem_round vs -> field_round (VList vs).
  Proof.
    intros Hel f d n ctx chunk fs0 Hf Hok Hd Hn Hhas He HL Hs Hfresh Hsib.
    pose proof (find_desc_ok _ _ _ _ Ht Hf) as Hfo.
    cbn [ok_field] in Hok. apply andb_true_iff in Hok. destruct Hok as [HiL Hok].
    rewrite has_omitted in Hhas. apply negb_true_iff in Hhas.
    cbn [enc_value] in He. fold (omitted t f (VList vs)) in He. rewrite Hhas, HiL in He.
    assert (Hg : fs_get t f fs0 = VList []).
    { unfold fs_get, fs_get_value. rewrite Hfresh. apply fd_default_list, HiL. }
    destruct n as [|n]; [lia|].
    destruct (fd_packed f) eqn:Ep.
    - destruct (fo_packed _ _ Hfo Ep) as [_ Hpk]. rewrite Hpk in He. cbn [negb] in He.
      apply rbind_ok in He. destruct He as (l & El & He).
      apply rbind_ok in He. destruct He as (body & Eb & He). injection He as <-.
      rewrite !app_length in HL.
      assert (Hl : l = N.of_nat (length body)).
      { assert (A : agree (rsum (fun x => of_opt (len_packed (fd_kind f) x)) vs)
                         (rcat (fun x => of_opt (enc_packed (fd_kind f) x)) vs)).
        { apply agree_sum. intros x Hx. apply agree_of_opt, packed_agree.
          rewrite forallb_forall in Hok. exact (proj1 (ok_rust t x) _ (Hok _ Hx)). }
        rewrite El, Eb in A. apply A. lia. }
      subst l.
      assert (Hnorm : map (fun x => norm t x f) vs = vs).
      { rewrite forallb_forall in Hok. clear - Hok Hpk. induction vs as [|x vs IH]; [reflexivity|].
        cbn [map]. rewrite IH by (intros y Hy; apply Hok; right; exact Hy). f_equal.
        pose proof (Hok x (or_introl eq_refl)) as H.
        assert (Hk : is_msg_kind (fd_kind f) = false)
          by (unfold fd_is_packable in Hpk; destruct (fd_kind f); try discriminate; reflexivity).
        apply ok_elem_scalar in H; [|exact Hk].
        destruct x, (fd_kind f); try discriminate H; reflexivity. }
      apply eats_one; [apply (fo_tag _ _ Hfo)|discriminate|]. intros rest.
      unfold merge_msg_field. cbn [dm_desc]. rewrite Hf. apply merge_into_eq; auto.
      rewrite Hg. cbn [merge_value merge_body norm]. rewrite HiL, Hpk.
      change (wt_eqb WLen WLen) with true. cbn [andb]. rewrite Hnorm.
      unfold merge_loop. rewrite <- app_assoc.
      rewrite decode_encode_varint by lia.
      destruct (N.of_nat (length (body ++ rest)) <? N.of_nat (length body)) eqn:E.
      { rewrite app_length in E. lia. }
      replace (length (body ++ rest) - N.to_nat (N.of_nat (length body)))%nat with (length rest)
        by (rewrite app_length; lia).
      rewrite (packed_loop _ (enc_packed (fd_kind f)) (fun s x => s ++ [x]) vs).
      + cbn [dmap]. rewrite fold_app_map. reflexivity.
      + intros s x bs r Hx Hbs Hsz. rewrite forallb_forall in Hok. specialize (Hok _ Hx).
        assert (Hk : is_msg_kind (fd_kind f) = false)
          by (unfold fd_is_packable in Hpk; destruct (fd_kind f); try discriminate; reflexivity).
        pose proof (kind_default_start f Hfo) as Hst. unfold start in Hst.
        assert (Hk2 : kind_msg (fd_kind f) = None)
          by (unfold is_msg_kind in Hk; destruct (kind_msg (fd_kind f)); [discriminate|reflexivity]).
        rewrite Hk2 in Hst. apply ok_elem_scalar in Hok; [|exact Hk].
        destruct (scalar_round _ _ _ _ _ r Hok Hst (packed_scalar _ _ _ Hbs) Hsz) as [_ Hm].
        destruct n as [|n]; [lia|]. cbn [merge_value]. unfold merge_body.
        destruct (kind_default t (fd_kind f)) eqn:Ed; try (rewrite Hm; reflexivity);
          destruct (fd_kind f); discriminate.
      + intros x bs _. apply packed_nonempty.
      + exact Eb.
      + lia.
      + lia.
    - destruct vs as [|x vs].
      { unfold omitted, is_default_for in Hhas. rewrite (fd_default_list _ HiL) in Hhas. cbn in Hhas.
        rewrite andb_true_r in Hhas. apply negb_false_iff in Hhas.
        pose proof (find_desc_shape _ _ _ _ Hwf Hf) as Hsh.
        rewrite (fs_nopres _ _ Hsh) in Hhas; [discriminate|].
        unfold fd_is_list in HiL. apply andb_true_iff in HiL. apply HiL. }
      apply (unpacked_round f d n ctx (x :: vs) chunk fs0 []); auto; try lia.
      discriminate.
  Qed.

  (** *** Maps *)

  Lemma map_insert_fresh {A} k (v : A) l :
    existsb (fun kv => mk_eqb k (fst kv)) l = false -> map_insert k v l = l ++ [(k, v)].
  Proof.
    induction l as [|[k' v'] l IH]; cbn; [reflexivity|]. intros H. apply orb_false_iff in H.
    destruct H as [-> H]. rewrite IH by exact H. reflexivity.
  Qed.

  Definition norm_entry (vf : fdl) (kv : mapkey * value) : mapkey * value :=
    (fst kv, if omitted t vf (snd kv) then fd_default_value t vf else norm t (snd kv) vf).

  Definition entry_step (n : nat) (kf vf : fdl) (ctx : nat) :=
    fun (kv : mapkey * value) (num : N) (w' : wt) (b : bytes) =>
      if num =? MAP_KEY_NUMBER then
        dmap (fun k' => (k', snd kv)) (mk_merge (fd_kind kf) (fst kv) w' b)
      else if num =? MAP_VALUE_NUMBER then
        dmap (fun v' => (fst kv, v')) (merge_value n t vf (snd kv) w' ctx b)
      else match skip_field ctx w' num b with
           | Ok r => DOk kv r
           | Err e => DErr e kv
           | Panic => DPanic
           | Fuel => DFuel
           end.

  Lemma entry_eats e kf vf n ctx k v k0 bk bv :
    entry_key t e = Some kf -> entry_value t e = Some vf -> mk_default (fd_kind kf) = Some k0 ->
    is_repeated vf = false -> mk_okb (fd_kind kf) k = true -> ok_elem t v (fd_kind vf) = true ->
    elem_round v -> (depth v <= ctx)%nat -> (2 * ctx + 1 <= n)%nat ->
    mk_encode kf k = Ok bk -> enc_value t v vf = Ok bv ->
    N.of_nat (length (bk ++ bv)) < two64 ->
    eats (entry_step n kf vf ctx) (k0, fd_default_value t vf) (bk ++ bv) (norm_entry vf (k, v)).
  Proof.
    intros Ek Ev E0 Hr Hk Hv Hel Hd Hn Hbk Hbv HL. rewrite app_length in HL.
    pose proof (get_field_ok _ _ _ _ Ht Ek) as Hkf. pose proof (get_field_ok _ _ _ _ Ht Ev) as Hvf.
    pose proof (get_field_number _ _ _ _ Ht Ek) as Nk. pose proof (get_field_number _ _ _ _ Ht Ev) as Nv.
    eapply eats_app with (s2 := (k, fd_default_value t vf)).
    - unfold mk_encode in Hbk. apply rbind_ok in Hbk. destruct Hbk as (om & Eo & Hbk).
      destruct om.
      + injection Hbk as <-. unfold mk_omitted in Eo. destruct (fd_presence kf); [discriminate|].
        rewrite E0 in Eo. cbn in Eo. injection Eo as Eo. apply mk_eqb_eq in Eo. subst k0. apply eats_nil.
      + apply rbind_ok in Hbk. destruct Hbk as ([w bs] & Es & Hbk). cbn [fst snd] in Hbk.
        injection Hbk as <-. destruct (mk_enc_scalar (fd_kind kf) k) as [[w' bs']|] eqn:Em; [|discriminate Es].
        injection Es as -> ->. rewrite app_length in HL.
        assert (Hw : w <> WEnd).
        { rewrite mk_enc_value in Em. apply enc_scalar_kind in Em. apply Em. }
        apply eats_one; [apply (fo_tag _ _ Hkf)|exact Hw|]. intros rest.
        unfold entry_step. rewrite Nk. change (MAP_KEY_NUMBER =? MAP_KEY_NUMBER) with true.
        cbv iota. cbn [fst snd].
        rewrite (mk_round _ _ _ _ _ rest Hk (mk_default_ok _ _ E0) Em) by lia. reflexivity.
    - unfold norm_entry. cbn [fst snd]. destruct (omitted t vf v) eqn:Om.
      + assert (E : enc_value t v vf = Ok []).
        { destruct v as [| | | | | | | | | |m| |]; cbn [enc_value]; fold (omitted t vf) ;
            unfold omitted in Om; rewrite Om; reflexivity. }
        rewrite E in Hbv. injection Hbv as <-. apply eats_nil.
      + destruct (Hel vf n ctx bv Hvf Hv Hd Hn Om Hbv ltac:(lia)) as (w & body & -> & Hw & _ & Hm).
        apply eats_one; [apply (fo_tag _ _ Hvf)|exact Hw|]. intros rest.
        unfold entry_step. rewrite Nv. change (MAP_VALUE_NUMBER =? MAP_KEY_NUMBER) with false.
        change (MAP_VALUE_NUMBER =? MAP_VALUE_NUMBER) with true. cbv iota. cbn [fst snd].
        rewrite Hm; [reflexivity|]. apply default_start; [exact Hvf|apply is_list_repeated, Hr|].
        eapply get_field_map; eassumption.
  Qed.

  Lemma map_round f d e kf vf k0 n ctx kvs : forall chunk fs0 pre,
    find_desc t d (fd_number f) = Some f -> fd_is_map f = true -> fd_is_list f = false ->
    kind_msg (fd_kind f) = Some e ->
    entry_key t e = Some kf -> entry_value t e = Some vf -> mk_default (fd_kind kf) = Some k0 ->
    is_repeated vf = false ->
    Forall (fun kv => elem_round (snd kv)) kvs ->
    forallb (fun x => mk_okb (fd_kind kf) (fst x) && ok_elem t (snd x) (fd_kind vf)) kvs = true ->
    keys_nodupb kvs = true ->
    (forall k, existsb (fun kv => mk_eqb k (fst kv)) kvs = true ->
               existsb (fun kv => mk_eqb k (fst kv)) pre = false) ->
    (list_max (map (fun kv => depth (snd kv)) kvs) <= ctx)%nat -> (2 * ctx + 1 <= n)%nat ->
    rcat (fun kv =>
            let! lk := mk_len kf (fst kv) in
            let! lv := len_value t (snd kv) vf in
            let! bk := mk_encode kf (fst kv) in
            let! bv := enc_value t (snd kv) vf in
            Ok (encode_key (fd_number f) WLen ++ encode_varint (lk + lv) ++ bk ++ bv)) kvs = Ok chunk ->
    N.of_nat (length chunk) < two64 ->
    bt_sorted fs0 -> no_siblings f fs0 -> fs_get t f fs0 = VMap pre -> kvs <> [] ->
    eats (merge_msg_field t (merge_value (S n) t) ctx) (DM d fs0) chunk
         (DM d (bt_set (fd_number f) (SVal (VMap (pre ++ map (norm_entry vf) kvs))) fs0)).
  Proof.
    induction kvs as [|[k v] kvs IH];
      intros chunk fs0 pre Hf HM HnL Hkm Ek Ev E0 Hr Hel Hok Hnd Hfr Hd Hn He Hlen Hs Hsib Hg Hne;
      [congruence|].
    apply rcat_cons in He. destruct He as (cx & cr & Ex & Er & ->).
    rewrite app_length in Hlen. inversion_clear Hel as [|? ? Hx Hvs].
    cbn [forallb fst snd] in Hok, Ex, Hx. rewrite !andb_true_iff in Hok. destruct Hok as [[Hokk Hokv] Hok].
    cbn [map list_max fold_right snd] in Hd.
    change (fold_right Init.Nat.max 0%nat) with list_max in Hd.
    pose proof (find_desc_ok _ _ _ _ Ht Hf) as Hfo.
    cbn [keys_nodupb] in Hnd. apply andb_true_iff in Hnd. destruct Hnd as [Hnew Hnd].
    apply negb_true_iff in Hnew.
    apply rbind_ok in Ex. destruct Ex as (lk & Elk & Ex).
    apply rbind_ok in Ex. destruct Ex as (lv & Elv & Ex).
    apply rbind_ok in Ex. destruct Ex as (bk & Ebk & Ex).
    apply rbind_ok in Ex. destruct Ex as (bv & Ebv & Ex). injection Ex as <-.
    rewrite !app_length in Hlen.
    assert (Hlk : lk = N.of_nat (length bk)).
    { pose proof (mk_agree kf k (entry_number _ _ _ Ht Ek) (mk_ok_rust _ _ Hokk)) as A.
      rewrite Elk, Ebk in A. apply A. lia. }
    assert (Hlv : lv = N.of_nat (length bv)).
    { pose proof (value_agree t Ht v (proj1 (ok_rust t v) _ Hokv) vf (entry_vnumber _ _ _ Ht Ev)) as A.
      rewrite Elv, Ebv in A. apply A. lia. }
    assert (HE : encode_varint (lk + lv) ++ bk ++ bv = write_delimited (bk ++ bv)).
    { unfold write_delimited. rewrite app_length. subst lk lv. do 2 f_equal. lia. }
    assert (Hstep : eats (merge_msg_field t (merge_value (S n) t) ctx) (DM d fs0)
              (encode_key (fd_number f) WLen ++ encode_varint (lk + lv) ++ bk ++ bv)
              (DM d (bt_set (fd_number f) (SVal (VMap (pre ++ [norm_entry vf (k, v)]))) fs0))).
    { apply eats_one; [apply (fo_tag _ _ Hfo)|discriminate|]. intros rest. rewrite HE.
      unfold merge_msg_field. cbn [dm_desc]. rewrite Hf. apply merge_into_eq; auto.
      rewrite Hg. cbn [merge_value merge_body]. rewrite Hkm, HM, Ek, Ev, E0.
      fold (entry_step n kf vf ctx).
      rewrite (merge_loop_eats (entry_step n kf vf ctx) _ (bk ++ bv) (norm_entry vf (k, v))).
      - unfold norm_entry at 1. cbn [fst snd]. rewrite map_insert_fresh; [reflexivity|].
        apply Hfr. cbn. rewrite (proj2 (mk_eqb_eq k k) eq_refl). reflexivity.
      - eapply entry_eats; eauto; try lia. rewrite app_length. lia.
      - rewrite app_length. lia. }
    eapply eats_app; [exact Hstep|].
    destruct kvs as [|kv2 kvs].
    { cbn in Er. injection Er as <-. apply eats_nil. }
    set (fs1 := bt_set (fd_number f) (SVal (VMap (pre ++ [norm_entry vf (k, v)]))) fs0).
    replace (bt_set (fd_number f) (SVal (VMap (pre ++ map (norm_entry vf) ((k, v) :: kv2 :: kvs)))) fs0)
      with (bt_set (fd_number f) (SVal (VMap ((pre ++ [norm_entry vf (k, v)]) ++ map (norm_entry vf) (kv2 :: kvs)))) fs1).
    2: { unfold fs1. rewrite bt_set_set by exact Hs. rewrite <- app_assoc. reflexivity. }
    apply IH; auto; try lia.
    - intros k' Hk'. rewrite existsb_app. apply orb_false_iff. split.
      + apply Hfr. cbn [existsb]. cbn [existsb] in Hk'. rewrite Hk'. apply orb_true_r.
      + cbn. rewrite orb_false_r. destruct (mk_eqb k' k) eqn:E; [|reflexivity].
        apply mk_eqb_eq in E. subst k'. rewrite Hnew in Hk'. discriminate.
    - apply bt_set_sorted, Hs.
    - apply no_siblings_set, Hsib.
    - apply fs_get_set.
    - discriminate.
  Qed.

  Lemma map_field kvs : Forall (fun kv => elem_round (snd kv)) kvs -> field_round (VMap kvs).
  Proof.
    intros Hel f d n ctx chunk fs0 Hf Hok Hd Hn Hhas He HL Hs Hfresh Hsib.
    pose proof (find_desc_ok _ _ _ _ Ht Hf) as Hfo.
    pose proof (find_desc_shape _ _ _ _ Hwf Hf) as Hsh.
    cbn [ok_field] in Hok.
    rewrite has_omitted in Hhas. apply negb_true_iff in Hhas.
    cbn [enc_value] in He. fold (omitted t f (VMap kvs)) in He. rewrite Hhas in He.
    destruct (kind_msg (fd_kind f)) as [e|] eqn:Ekm; [|discriminate Hok].
    destruct (fd_is_map f) eqn:EM; [|discriminate Hok].
    assert (HnL : fd_is_list f = false).
    { unfold fd_is_list. rewrite EM. apply andb_false_r. }
    destruct (fs_map _ _ Hsh EM) as (e' & kf & vf & k0 & Ekm' & Ek & Ev & E0 & Hrk & Hrv).
    rewrite Ekm in Ekm'. injection Ekm' as <-. rewrite Ek, Ev in *.
    apply andb_true_iff in Hok. destruct Hok as [Hnd Hok].
    assert (Hdef : fd_default_value t f = VMap []).
    { unfold fd_default_value. rewrite HnL, EM. reflexivity. }
    cbn [norm]. rewrite Ekm, Ev.
    destruct n as [|n]; [lia|].
    destruct kvs as [|kv kvs].
    { unfold omitted, is_default_for in Hhas. rewrite Hdef in Hhas. cbn in Hhas.
      rewrite andb_true_r in Hhas. apply negb_false_iff in Hhas.
      rewrite (fs_nopres _ _ Hsh) in Hhas; [discriminate|].
      assert (R : fd_is_map f = true -> is_repeated f = true).
      { clear - Hf Ht. intros H. unfold find_desc in Hf.
        destruct (get_field t d (fd_number f)) eqn:E.
        - injection Hf as ->. destruct (get_field_inv _ _ _ _ Ht E) as (m & i & fi & _ & _ & -> & _).
          cbn in H. unfold is_map_kind in H. apply andb_true_iff in H. apply H.
        - destruct (get_ext_inv _ _ _ _ Ht Hf) as (_ & Hin & _).
          destruct (msg_exts_inv _ _ _ Ht Hin) as (m & x & e & _ & _ & _ & _ & -> & _).
          cbn in H. unfold is_map_kind in H. apply andb_true_iff in H. apply H. }
      apply R, EM. }
    apply (map_round f d e kf vf k0 n ctx (kv :: kvs) chunk fs0 []); auto; try lia.
    - unfold fs_get, fs_get_value. rewrite Hfresh. exact Hdef.
    - discriminate.
  Qed.

  (** *** Messages *)

  Definition inum (it : item value) : N :=
    match it with
    | IField f _ | IExt f _ => fd_number f
    | IUnk us => match us with u :: _ => uf_number u | [] => 0 end
    end.
  Definition islot (it : item value) : slot value :=
    match it with
    | IField f v | IExt f v => SVal v
    | IUnk us => SUnk us
    end.
  Definition oslot (it : item value) : slot value :=
    match it with
    | IField f v | IExt f v => SVal (norm t v f)
    | IUnk us => SUnk us
    end.
  Definition isib (it : item value) (k : N) : Prop :=
    match it with
    | IField f _ | IExt f _ => sibling f k
    | IUnk _ => False
    end.
  Definition ihas (it : item value) : Prop :=
    match it with
    | IField f v => fd_has t f v = true
    | IExt f v => fd_has t f v = true
    | IUnk _ => True
    end.
  Definition idesc (d : nat) (it : item value) : Prop :=
    match it with
    | IField f _ => get_field t d (fd_number f) = Some f
    | IExt f _ => get_ext t d (fd_number f) = Some f /\ get_field t d (fd_number f) = None
    | IUnk us => find_desc t d (inum (IUnk us)) = None
    end.

  (** the items of a valid message *)
  Record is_item (m : dynmsg) (it : item value) : Prop := {
    ii_slot : bt_get (inum it) (dm_fields m) = Some (islot it);
    ii_desc : idesc (dm_desc m) it;
    ii_has : ihas it
  }.

  Lemma unk_num m n us :
    msg_ok t m -> bt_get n (dm_fields m) = Some (SUnk us) ->
    inum (IUnk us) = n /\ find_desc t (dm_desc m) n = None /\ us <> [] /\
    Forall (fun u => uf_number u = n /\ uf_ok u) us.
  Proof.
    intros Hm Hb. pose proof (mo_slots _ _ Hm _ _ Hb) as S. cbn in S.
    destruct (find_desc t (dm_desc m) n); [discriminate|].
    rewrite !andb_true_iff in S. destruct S as [[_ Hne] Hall].
    assert (F : Forall (fun u => uf_number u = n /\ uf_ok u) us).
    { apply Forall_forall. intros u Hu. rewrite forallb_forall in Hall. specialize (Hall _ Hu).
      rewrite andb_true_iff in Hall. rewrite N.eqb_eq, uf_okb_ok in Hall. exact Hall. }
    destruct us as [|u us]; [discriminate|]. inversion F as [|? ? [H1 _] ?]; subst.
    split; [reflexivity|]. split; [reflexivity|]. split; [discriminate|exact F].
  Qed.

  Lemma iter_is_item m it :
    msg_ok t m -> In it (fs_iter t (dm_desc m) false false (dm_fields m)) -> is_item m it.
  Proof.
    intros Hm Hin. pose proof (iter_items _ _ _ _ _ Ht Hin) as Hi.
    destruct it as [f v|f v|us].
    - destruct Hi as (H1 & H2 & H3). split; auto.
    - destruct Hi as (H1 & H2 & H3). apply (bt_In_get _ _ _ (mo_sorted _ _ Hm)) in H2.
      split; auto. split; [exact H1|]. eapply field_ext_disjoint; eassumption.
    - destruct Hi as (n & H). apply (bt_In_get _ _ _ (mo_sorted _ _ Hm)) in H.
      destruct (unk_num _ _ _ Hm H) as (E & Hn & _). split; cbn [idesc islot ihas]; rewrite ?E; auto.
  Qed.

  Lemma iter_complete m it :
    msg_ok t m -> is_item m it -> In it (fs_iter t (dm_desc m) false false (dm_fields m)).
  Proof.
    intros Hm [Hs Hd Hh]. unfold fs_iter, fs_iter_gen. apply in_or_app.
    destruct it as [f v|f v|us]; cbn [inum islot idesc ihas] in *.
    - left. unfold iter_declared. apply in_flat_map. exists f. split.
      + apply msg_fields_get; assumption.
      + unfold fs_get_value. rewrite Hs, Hh. left; reflexivity.
    - right. unfold iter_rest. apply in_flat_map. exists (fd_number f, SVal v). split.
      + apply bt_get_In, Hs.
      + cbn. destruct Hd as [-> _]. rewrite Hh. left; reflexivity.
    - right. unfold iter_rest. apply in_flat_map. eexists. split.
      + apply bt_get_In, Hs.
      + left; reflexivity.
  Qed.

  Lemma nodup_flat_map {A} (g : A -> list (item value)) (num : A -> N) l :
    NoDup (map num l) ->
    (forall a, (length (g a) <= 1)%nat) -> (forall a it, In a l -> In it (g a) -> inum it = num a) ->
    NoDup (map inum (flat_map g l)).
  Proof.
    intros Hn Hl Hg. induction l as [|a l IH]; cbn [flat_map map]; [constructor|].
    cbn in Hn. inversion_clear Hn as [|? ? Hni Hn'].
    assert (IH' : NoDup (map inum (flat_map g l))).
    { apply IH; [exact Hn'|]. intros b it Hb. apply Hg. right; exact Hb. }
    pose proof (Hl a) as L. pose proof (fun it => Hg a it (or_introl eq_refl)) as G.
    destruct (g a) as [|x [|? ?]]; cbn in *; auto; [|lia].
    constructor; [|exact IH']. rewrite (G x (or_introl eq_refl)). intros Hin.
    apply in_map_iff in Hin. destruct Hin as (it & Eit & Hin). apply in_flat_map in Hin.
    destruct Hin as (b & Hb & Hit). apply Hni. rewrite <- Eit, (Hg b it (or_intror Hb) Hit).
    apply in_map, Hb.
  Qed.

  Lemma NoDup_app' {A} (a b : list A) :
    NoDup a -> NoDup b -> (forall x, In x a -> ~ In x b) -> NoDup (a ++ b).
  Proof.
    induction a as [|x a IH]; cbn; intros Ha Hb Hd; [exact Hb|].
    inversion_clear Ha as [|? ? Hx Ha']. constructor.
    - rewrite in_app_iff. intros [H|H]; [contradiction|]. exact (Hd x (or_introl eq_refl) H).
    - apply IH; [exact Ha'|exact Hb|]. intros y Hy. apply Hd. right; exact Hy.
  Qed.

  Lemma iter_nodup m :
    msg_ok t m -> NoDup (map inum (fs_iter t (dm_desc m) false false (dm_fields m))).
  Proof.
    intros Hm. pose proof (fun it => iter_is_item m it Hm) as HI.
    unfold fs_iter, fs_iter_gen in *. rewrite map_app. apply NoDup_app'.
    - unfold iter_declared. apply nodup_flat_map with (num := fd_number).
      + apply msg_fields_nodup, Ht.
      + intros f. destruct (fs_get_value (dm_fields m) (fd_number f)); cbn [andb]; [|cbn; lia].
        destruct (fd_has t f v); cbn; lia.
      + intros f it _ Hin. destruct (fs_get_value (dm_fields m) (fd_number f)); cbn [andb] in Hin; [|contradiction].
        destruct (fd_has t f v); [|contradiction]. destruct Hin as [<-|[]]. reflexivity.
    - unfold iter_rest. apply nodup_flat_map with (num := fst).
      + apply bt_sorted_nodup, (mo_sorted _ _ Hm).
      + intros [k s]. cbn. destruct s; cbn; try lia. destruct (get_ext t (dm_desc m) k); cbn; [|lia].
        destruct (fd_has t f v); cbn; lia.
      + intros [k s] it Hk Hin. cbn in *. destruct s; [contradiction| |].
        * destruct (get_ext t (dm_desc m) k) as [x|] eqn:Ex; [|contradiction].
          destruct (fd_has t x v); [|contradiction]. destruct Hin as [<-|[]]. cbn.
          eapply get_ext_number; eassumption.
        * destruct Hin as [<-|[]]. apply (bt_In_get _ _ _ (mo_sorted _ _ Hm)) in Hk.
          destruct (unk_num _ _ _ Hm Hk) as [H _]. exact H.
    - intros x Hx Hy. apply in_map_iff in Hx. destruct Hx as (i1 & <- & H1).
      apply in_map_iff in Hy. destruct Hy as (i2 & E & H2).
      pose proof (HI i1 (in_or_app _ _ _ (or_introl H1))) as [_ D1 _].
      pose proof (HI i2 (in_or_app _ _ _ (or_intror H2))) as [_ D2 _].
      unfold iter_declared in H1. apply in_flat_map in H1. destruct H1 as (f & _ & H1).
      assert (S1 : exists v, i1 = IField f v).
      { destruct (fs_get_value (dm_fields m) (fd_number f)) as [v|]; cbn [andb] in H1; [|contradiction].
        destruct (fd_has t f v); [|contradiction]. destruct H1 as [<-|[]]. eauto. }
      destruct S1 as (v & ->). cbn [idesc inum] in *.
      unfold iter_rest in H2. apply in_flat_map in H2. destruct H2 as ([k s] & _ & H2). cbn in H2.
      destruct s as [|v'|us]; [contradiction| |].
      + destruct (get_ext t (dm_desc m) k) as [x|]; [|contradiction].
        destruct (fd_has t x v'); [|contradiction]. destruct H2 as [<-|[]].
        cbn in D2, E. destruct D2 as [_ D2]. rewrite E, D1 in D2. discriminate.
      + destruct H2 as [<-|[]]. cbn [idesc] in D2. rewrite E in D2. unfold find_desc in D2.
        rewrite D1 in D2. discriminate.
  Qed.

  Lemma items_compat m it it' :
    msg_ok t m -> is_item m it -> is_item m it' -> ~ isib it' (inum it).
  Proof.
    intros Hm [S1 D1 _] [S2 D2 _] Hsib. destruct it' as [f' v'|f' v'|us']; [| |exact Hsib].
    - cbn [isib idesc inum islot] in *. destruct Hsib as (nums & Ho & Hin & Hne).
      destruct it as [f v|f v|us]; cbn [inum islot idesc] in *.
      + eapply (mo_oneof _ _ Hm (fd_number f') f' v' nums (fd_number f) v); eauto.
      + eapply (mo_oneof _ _ Hm (fd_number f') f' v' nums (fd_number f) v); eauto.
      + destruct (oneof_siblings _ _ _ _ _ _ Ht D2 Ho Hin) as (g & Eg & _).
        unfold find_desc in D1. cbn [inum] in D1. rewrite Eg in D1. discriminate.
    - cbn [isib idesc] in *. destruct Hsib as (nums & Ho & _). destruct D2 as [D2 _].
      rewrite (get_ext_oneof _ _ _ _ Ht D2) in Ho. discriminate.
  Qed.

  Definition app_item (fs : fieldset) (it : item value) : fieldset := bt_set (inum it) (oslot it) fs.

  Lemma fold_items_other its : forall fs k, ~ In k (map inum its) ->
    bt_get k (fold_left app_item its fs) = bt_get k fs.
  Proof.
    induction its as [|it its IH]; intros fs k Hk; cbn; [reflexivity|].
    rewrite IH by (intros H; apply Hk; right; exact H). unfold app_item.
    apply bt_get_set_other. intros ->. apply Hk. left; reflexivity.
  Qed.
  Lemma fold_items_get its : forall fs it, NoDup (map inum its) -> In it its ->
    bt_get (inum it) (fold_left app_item its fs) = Some (oslot it).
  Proof.
    induction its as [|i its IH]; intros fs it Hn Hin; [contradiction|].
    cbn in Hn. inversion_clear Hn as [|? ? Hni Hn']. cbn [fold_left]. destruct Hin as [->|Hin].
    - rewrite fold_items_other by exact Hni. apply bt_get_set_same.
    - apply IH; assumption.
  Qed.
  Lemma fold_items_sorted its : forall fs, bt_sorted fs -> bt_sorted (fold_left app_item its fs).
  Proof.
    induction its as [|i its IH]; intros fs H; cbn; [exact H|]. apply IH, bt_set_sorted, H.
  Qed.

  Lemma unknown_eats mv ctx d n us : forall fs pre,
    find_desc t d n = None -> Forall (fun u => uf_number u = n /\ uf_ok u) us ->
    ufs_len_ok us -> (ufs_depth us <= ctx)%nat ->
    bt_sorted fs -> bt_get n fs = (match pre with [] => None | _ => Some (SUnk pre) end) ->
    us <> [] ->
    eats (merge_msg_field t mv ctx) (DM d fs) (ufs_encode us) (DM d (bt_set n (SUnk (pre ++ us)) fs)).
  Proof.
    induction us as [|u us IH]; intros fs pre Hf Hall HL Hd Hs Hg Hne; [congruence|].
    inversion_clear Hall as [|? ? [Hu Huo] Hall']. change (ufs_encode (u :: us)) with (uf_encode u ++ ufs_encode us) in *.
    unfold ufs_len_ok in HL. cbn [ufs_encode flat_map] in HL. fold (ufs_encode us) in HL.
    rewrite app_length in HL. cbn [ufs_depth fold_right] in Hd. fold (ufs_depth us) in Hd.
    assert (Hstep : eats (merge_msg_field t mv ctx) (DM d fs) (uf_encode u) (DM d (bt_set n (SUnk (pre ++ [u])) fs))).
    { rewrite uf_encode_body. apply eats_one.
      - apply uf_ok_tag, Huo.
      - apply uf_wire_type_not_end.
      - intros rest. unfold merge_msg_field. cbn [dm_desc dm_fields]. rewrite Hu, Hf.
        rewrite <- Hu at 1. rewrite uf_decode_value_body; [|exact Huo|unfold uf_len_ok; lia|lia].
        unfold fs_add_unknown. rewrite Hg. destruct pre; reflexivity. }
    eapply eats_app; [exact Hstep|].
    destruct us as [|u2 us]; [apply eats_nil|].
    set (fs1 := bt_set n (SUnk (pre ++ [u])) fs).
    replace (bt_set n (SUnk (pre ++ u :: u2 :: us)) fs)
      with (bt_set n (SUnk ((pre ++ [u]) ++ u2 :: us)) fs1).
    2: { unfold fs1. rewrite bt_set_set by exact Hs. rewrite <- app_assoc. reflexivity. }
    apply IH; auto; try lia.
    - unfold ufs_len_ok. lia.
    - apply bt_set_sorted, Hs.
    - unfold fs1. rewrite bt_get_set_same. destruct pre; reflexivity.
    - discriminate.
  Qed.

  Lemma items_eat m n ctx :
    msg_ok t m -> Forall (fun kv => slot_all field_round (snd kv)) (dm_fields m) ->
    (msg_depth m <= ctx)%nat -> (2 * ctx + 2 <= n)%nat ->
    forall its b fs0, (forall it, In it its -> is_item m it) -> NoDup (map inum its) ->
      bt_sorted fs0 ->
      (forall it, In it its -> bt_get (inum it) fs0 = None /\ forall k, isib it k -> bt_get k fs0 = None) ->
      rcat (enc_item t) its = Ok b -> N.of_nat (length b) < two64 ->
      eats (merge_msg_field t (merge_value n t) ctx) (DM (dm_desc m) fs0) b
           (DM (dm_desc m) (fold_left app_item its fs0)).
  Proof.
    intros Hm HR Hd Hn. induction its as [|it its IH]; intros b fs0 HI Hnd Hs Hfr He HL.
    - cbn in He. injection He as <-. apply eats_nil.
    - apply rcat_cons in He. destruct He as (cx & cr & Ex & Er & ->). rewrite app_length in HL.
      cbn [map] in Hnd. inversion_clear Hnd as [|? ? Hni Hnd'].
      pose proof (HI it (or_introl eq_refl)) as Hit.
      destruct (Hfr it (or_introl eq_refl)) as [Hf1 Hf2].
      pose proof Hit as [S D H]. cbn [fold_left].
      apply eats_app with (s2 := DM (dm_desc m) (app_item fs0 it)).
      + pose proof (mo_slots _ _ Hm _ _ S) as Sok.
        rewrite (msg_depth_iff m ctx (mo_sorted _ _ Hm)) in Hd. specialize (Hd _ _ S).
        rewrite Forall_forall in HR. specialize (HR _ (bt_get_In _ _ _ S)).
        unfold app_item. destruct it as [f v|f v|us]; cbn [inum oslot enc_item islot isib ihas idesc] in *.
        * cbn in Sok, HR, Hd. assert (Hfd : find_desc t (dm_desc m) (fd_number f) = Some f)
            by (unfold find_desc; rewrite D; reflexivity).
          rewrite Hfd in Sok. apply HR; auto. lia.
        * cbn in Sok, HR, Hd. destruct D as [D1 D2].
          assert (Hfd : find_desc t (dm_desc m) (fd_number f) = Some f)
            by (unfold find_desc; rewrite D2; exact D1).
          rewrite Hfd in Sok. apply HR; auto. lia.
        * injection Ex as <-. change (match us with [] => 0 | u :: _ => uf_number u end) with (inum (IUnk us)) in *.
          destruct (unk_num _ _ _ Hm S) as (_ & Hnone & Hne & Hall).
          apply (unknown_eats _ ctx (dm_desc m) (inum (IUnk us)) us fs0 []); auto.
          unfold ufs_len_ok. lia.
      + apply IH; auto.
        * intros i Hi. apply HI. right; exact Hi.
        * apply bt_set_sorted, Hs.
        * intros i Hi. destruct (Hfr i (or_intror Hi)) as [F1 F2]. unfold app_item. split.
          -- rewrite bt_get_set_other; [exact F1|]. intros E. apply Hni. rewrite <- E. apply in_map, Hi.
          -- intros k Hk. rewrite bt_get_set_other; [apply F2, Hk|]. intros ->.
             eapply items_compat; [exact Hm|exact Hit|exact (HI i (or_intror Hi))|exact Hk].
        * lia.
  Qed.

  Lemma fold_is_norm m :
    msg_ok t m ->
    fold_left app_item (fs_iter t (dm_desc m) false false (dm_fields m)) [] = dm_fields (norm_msg t m).
  Proof.
    intros Hm. set (its := fs_iter t (dm_desc m) false false (dm_fields m)).
    pose proof (iter_nodup m Hm) as Hnd. fold its in Hnd.
    apply bt_ext.
    - apply fold_items_sorted. exact I.
    - apply norm_sorted, (mo_sorted _ _ Hm).
    - intros k. rewrite norm_get by apply (mo_sorted _ _ Hm).
      assert (Hno : (forall it, is_item m it -> inum it <> k) -> bt_get k (fold_left app_item its []) = None).
      { intros H. rewrite fold_items_other; [reflexivity|]. intros Hin. apply in_map_iff in Hin.
        destruct Hin as (it & E & Hin). exact (H it (iter_is_item m it Hm Hin) E). }
      assert (Hyes : forall it, is_item m it -> inum it = k -> bt_get k (fold_left app_item its []) = Some (oslot it)).
      { intros it Hi <-. apply fold_items_get; [exact Hnd|]. apply iter_complete; assumption. }
      destruct (bt_get k (dm_fields m)) as [[|v|us]|] eqn:Eb.
      + apply Hno. intros it [S _ _] E. rewrite E, Eb in S. destruct it; discriminate S.
      + pose proof (mo_slots _ _ Hm _ _ Eb) as Sok. cbn in Sok.
        destruct (find_desc t (dm_desc m) k) as [g|] eqn:Eg; [|discriminate].
        pose proof (find_desc_number _ _ _ _ Ht Eg) as Ng.
        destruct (fd_has t g v) eqn:Eh.
        * unfold find_desc in Eg. destruct (get_field t (dm_desc m) k) as [g'|] eqn:Egf.
          -- injection Eg as ->. apply (Hyes (IField g v)); [|exact Ng].
             split; cbn [inum islot idesc ihas]; rewrite ?Ng; auto.
          -- apply (Hyes (IExt g v)); [|exact Ng].
             split; cbn [inum islot idesc ihas]; rewrite ?Ng; auto.
        * apply Hno. intros it [S D H] E. rewrite E, Eb in S. destruct it as [f w|f w|us]; cbn in *.
          -- injection S as <-. rewrite <- E in Eg. unfold find_desc in Eg. rewrite D in Eg. injection Eg as ->. congruence.
          -- injection S as <-. rewrite <- E in Eg. destruct D as [D1 D2]. unfold find_desc in Eg.
             rewrite D2, D1 in Eg. injection Eg as ->. congruence.
          -- discriminate S.
      + destruct (unk_num _ _ _ Hm Eb) as (E & Hnone & _). apply (Hyes (IUnk us)); [|exact E].
        split; cbn [islot idesc ihas]; rewrite ?E; auto.
      + apply Hno. intros it [S _ _] E. rewrite E, Eb in S. discriminate S.
  Qed.

  Lemma message_eats m n ctx b :
    msg_ok t m -> Forall (fun kv => slot_all field_round (snd kv)) (dm_fields m) ->
    (msg_depth m <= ctx)%nat -> (2 * ctx + 2 <= n)%nat ->
    enc_msg t m = Ok b -> N.of_nat (length b) < two64 ->
    eats (merge_msg_field t (merge_value n t) ctx) (new_msg (dm_desc m)) b (norm_msg t m).
  Proof.
    intros Hm HR Hd Hn He HL. pose proof (fold_is_norm m Hm) as HF.
    change (norm_msg t m) with (DM (dm_desc m) (dm_fields (norm_msg t m))). rewrite <- HF.
    apply items_eat; auto.
    - intros it. apply iter_is_item, Hm.
    - apply iter_nodup, Hm.
    - exact I.
  Qed.

  Lemma message_elem d fs :
    Forall (fun kv => slot_all field_round (snd kv)) fs -> elem_round (VMessage (DM d fs)).
  Proof.
    intros HR f n ctx chunk Hf Hok Hd Hn Hom He HL.
    rewrite ok_elem_msg in Hok. destruct (kind_msg (fd_kind f)) as [i|] eqn:Ek; [|discriminate Hok].
    apply andb_true_iff in Hok. destruct Hok as [Hdi Hok]. apply Nat.eqb_eq in Hdi. cbn in Hdi. subst i.
    pose proof Hok as Hmok. apply ok_msg_iff in Hmok.
    rewrite enc_value_msg in He. fold (omitted t f (VMessage (DM d fs))) in He. rewrite Hom, Ek in He.
    apply rbind_ok in He. destruct He as (body & Eb & He).
    rewrite depth_msg in Hd. destruct ctx as [|ctx]; [lia|]. destruct n as [|n]; [lia|].
    rewrite norm_message.
    destruct (fd_is_group f) eqn:Eg.
    - injection He as <-. rewrite !app_length in HL.
      exists WStart, (body ++ encode_key (fd_number f) WEnd). split; [reflexivity|].
      split; [discriminate|]. split; [reflexivity|]. intros v0 rest Hv0. unfold start in Hv0.
      rewrite Ek in Hv0. subst v0. cbn [merge_value merge_body]. rewrite Ek, Eg.
      change (negb (wt_eqb WStart WStart)) with false. cbv iota.
      rewrite <- app_assoc.
      rewrite (group_loop_eats _ (fd_number f) (new_msg d) body (norm_msg t (DM d fs)) rest).
      + reflexivity.
      + apply (message_eats (DM d fs) n ctx body); auto; lia.
      + apply (fo_tag _ _ Hf).
      + lia.
    - apply rbind_ok in He. destruct He as (l & El & He). injection He as <-.
      rewrite !app_length in HL.
      assert (Hl : l = N.of_nat (length body)).
      { pose proof (ok_msg_encodes t _ Hwf Hok) as [Hr _].
        pose proof (msg_agree t (DM d fs) Ht Hr) as A. rewrite El, Eb in A. apply A. lia. }
      subst l. exists WLen, (write_delimited body). split; [reflexivity|]. split; [discriminate|].
      split.
      { unfold fd_is_packable. destruct (fd_kind f); try discriminate Ek; reflexivity. }
      intros v0 rest Hv0. unfold start in Hv0.
      rewrite Ek in Hv0. subst v0. cbn [merge_value merge_body]. rewrite Ek, Eg.
      change (negb (wt_eqb WLen WLen)) with false. cbv iota.
      rewrite (merge_loop_eats _ (new_msg d) body (norm_msg t (DM d fs)) rest).
      + reflexivity.
      + apply (message_eats (DM d fs) n ctx body); auto; lia.
      + lia.
  Qed.

  Lemma value_round v : (plain v = true -> elem_round v) /\ field_round v.
  Proof.
    induction v as [b|z|z|n|n|n|n|s|s|z|d fs IH|vs IH|kvs IH] using value_ind'.
    11: { assert (E : elem_round (VMessage (DM d fs))).
      { apply message_elem. eapply Forall_impl; [|exact IH]. intros [k s] H.
        destruct s; cbn in *; auto. apply H. }
      split; [intros _; exact E|]. apply elem_field; [reflexivity|exact E]. }
    11: { split; [discriminate|].
      intros f d n ctx chunk fs0 Hf Hok. revert Hf Hok. intros Hf Hok.
      apply list_field; auto. apply Forall_forall. intros x Hx. rewrite Forall_forall in IH.
      cbn [ok_field] in Hok. apply andb_true_iff in Hok. destruct Hok as [_ Hok].
      rewrite forallb_forall in Hok. apply (IH _ Hx). eapply ok_elem_plain, Hok, Hx. }
    11: { split; [discriminate|].
      intros f d n ctx chunk fs0 Hf Hok. apply map_field; auto.
      apply Forall_forall. intros x Hx. rewrite Forall_forall in IH.
      cbn [ok_field] in Hok. destruct (kind_msg (fd_kind f)); [|discriminate].
      destruct (fd_is_map f); [|discriminate].
      destruct (entry_key t n0) as [kf|]; [|discriminate].
      destruct (entry_value t n0) as [vf|]; [|discriminate].
      apply andb_true_iff in Hok. destruct Hok as [_ Hok]. rewrite forallb_forall in Hok.
      specialize (Hok _ Hx). apply andb_true_iff in Hok. destruct Hok as [_ Hok].
      apply (IH _ Hx). eapply ok_elem_plain, Hok. }
    all: split; [intros _; apply scalar_elem; reflexivity|];
      apply elem_field; [reflexivity|apply scalar_elem; reflexivity].
  Qed.

  Lemma all_fields_round (fs : fieldset) : Forall (fun kv => slot_all field_round (snd kv)) fs.
  Proof. apply Forall_forall. intros [k s] _. destruct s; cbn; auto. apply value_round. Qed.

  Lemma msg_round_eats m n ctx b :
    ok_msg t m = true -> (msg_depth m <= ctx)%nat -> (2 * ctx + 2 <= n)%nat ->
    enc_msg t m = Ok b -> N.of_nat (length b) < two64 ->
    eats (merge_msg_field t (merge_value n t) ctx) (new_msg (dm_desc m)) b (norm_msg t m).
  Proof.
    intros Hm Hd Hn He HL. apply message_eats; auto; [apply ok_msg_iff, Hm|apply all_fields_round].
  Qed.

  Theorem decode_encode_norm m b :
    ok_msg t m = true -> (msg_depth m <= 100)%nat ->
    enc_msg t m = Ok b -> N.of_nat (length b) < two64 ->
    msg_decode t (dm_desc m) b = Ok (norm_msg t m).
  Proof.
    intros Hm Hd He HL. unfold msg_decode, msg_merge, msg_merge_fuel.
    rewrite (stream_loop_eats _ (new_msg (dm_desc m)) b (norm_msg t m)); [reflexivity| |lia].
    apply msg_round_eats; auto. unfold merge_fuel. change ctx0 with 100%nat. lia.
  Qed.
End Round.
