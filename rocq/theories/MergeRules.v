(** What merging one record does to the field it names. *)
From Verif Require Import Base BaseProofs Wire WireProofs LoopProofs Unknown UnknownProofs
  Value Descr Fields Codec DescrOk DescrProofs FieldsProofs LenProofs MergeProofs DepthProofs
  ExtendProofs RestrictProofs RecordProofs.

(** [c] is exactly one record, for number [n]: a key followed by a payload
    which merging consumes to the end. *)
Definition single (ctx : nat) (t : tables) (m : dynmsg) (c : bytes) (n : N) (m' : dynmsg) : Prop :=
  exists w p, decode_key c = Ok (n, w, p) /\ merge_field ctx t m n w p = DOk m' [].

Lemma dle_ok {S} (d1 d2 : dres S) s r : dle d1 d2 -> d1 = DOk s r -> d2 = DOk s r.
Proof. intros [-> | ->]; [discriminate|auto]. Qed.

Lemma merge_scalar_indep k v v0 w b x r :
  sc_okb k v = true -> sc_okb k v0 = true ->
  merge_scalar k v w b = Some (DOk x r) -> merge_scalar k v0 w b = Some (DOk x r).
Proof.
  assert (G : forall e o1 o2 q, Some (rd e w o1 q) = Some (DOk x r) -> Some (rd e w o2 q) = Some (DOk x r)).
  { intros e o1 o2 q. unfold rd. destruct (wt_eqb e w); [|discriminate].
    destruct q as [[a y]| | |]; cbn; try discriminate. auto. }
  intros H H0 E. destruct v, k; try discriminate H; destruct v0; try discriminate H0;
    cbn [merge_scalar] in *; eapply G, E.
Qed.

Lemma map_get_insert {A} k (v : A) l k' :
  map_get k' (map_insert k v l) = if mk_eqb k' k then Some v else map_get k' l.
Proof.
  induction l as [|[k1 v1] l IH]; cbn [map_insert map_get].
  - destruct (mk_eqb k' k) eqn:E; reflexivity.
  - destruct (mk_eqb k k1) eqn:E1; cbn [map_get].
    + apply mk_eqb_eq in E1. subst k1. destruct (mk_eqb k' k) eqn:E; reflexivity.
    + destruct (mk_eqb k' k1) eqn:E2; [|exact IH].
      destruct (mk_eqb k' k) eqn:E3; [|reflexivity].
      apply mk_eqb_eq in E2, E3. assert (Ek : k = k1) by congruence. apply mk_eqb_eq in Ek. congruence.
Qed.

Section Rules.
  Variable t : tables.

  Lemma mv202 f v w ctx p :
    merge_value 202 t f v w ctx p = merge_body t (merge_value 201 t) f v w ctx p.
  Proof. reflexivity. Qed.

  Hypothesis Hwf : wf t.

  Lemma field_result ctx m n w p f m' :
    find_desc t (dm_desc m) n = Some f -> merge_field ctx t m n w p = DOk m' [] ->
    exists v, merge_value 202 t f (get_field_value t m f) w ctx p = DOk v [] /\
      get_field_value t m' f = v /\ m' = DM (dm_desc m) (fs_put f v (fs_get_mut t f (dm_fields m))).
  Proof.
    intros Hf. unfold merge_field, merge_msg_field. rewrite Hf. unfold merge_into.
    rewrite get_mut_get_self. unfold get_field_value.
    destruct (merge_value 202 t f (fs_get t f (dm_fields m)) w ctx p) as [v r|? ?| |]; try discriminate.
    injection 1 as <- ->. exists v. split; [reflexivity|]. split; [|reflexivity].
    unfold get_field_value, fs_get, fs_get_value, fs_put. cbn [dm_fields with_fields].
    rewrite bt_get_set_same. reflexivity.
  Qed.
  Lemma field_result_conv ctx m n w p f v :
    find_desc t (dm_desc m) n = Some f ->
    merge_value 202 t f (get_field_value t m f) w ctx p = DOk v [] ->
    exists m', merge_field ctx t m n w p = DOk m' [] /\ get_field_value t m' f = v.
  Proof.
    intros Hf H. exists (DM (dm_desc m) (fs_put f v (fs_get_mut t f (dm_fields m)))).
    split.
    - unfold merge_field, merge_msg_field. rewrite Hf. unfold merge_into.
      rewrite get_mut_get_self. unfold get_field_value in H. rewrite H. reflexivity.
    - unfold get_field_value, fs_get, fs_get_value, fs_put. cbn [dm_fields]. rewrite bt_get_set_same. reflexivity.
  Qed.

  (** everything else is left alone, oneof siblings are cleared *)
  Lemma record_frame ctx m n w p f m' :
    find_desc t (dm_desc m) n = Some f -> merge_field ctx t m n w p = DOk m' [] ->
    untouched t f m m' /\ (forall g, sibling f (fd_number g) -> has_field t m' g = false).
  Proof.
    intros Hf H. destruct (field_result _ _ _ _ _ _ _ Hf H) as (v & _ & _ & ->).
    assert (G : forall k, k <> fd_number f ->
      bt_get k (fs_put f v (fs_get_mut t f (dm_fields m))) = if siblingb f k then None else bt_get k (dm_fields m)).
    { intros k Hk. unfold fs_put. rewrite bt_get_set_other by exact Hk. rewrite get_mut_get.
      destruct (k =? fd_number f) eqn:E; [lia|reflexivity]. }
    split.
    - apply untouched_intro; [reflexivity|]. intros k Hk Hs. cbn [dm_fields]. rewrite G by exact Hk.
      apply siblingb_nok in Hs. rewrite Hs. reflexivity.
    - intros g Hs. unfold has_field, fs_has, fs_get_value. cbn [dm_fields].
      assert (fd_number g <> fd_number f) by (destruct Hs as (? & _ & _ & Hne); exact Hne).
      rewrite G by assumption. apply siblingb_ok in Hs. rewrite Hs. reflexivity.
  Qed.

  Lemma stored_value m n f : ok_msg t m = true -> find_desc t (dm_desc m) n = Some f ->
    ok_field t f (get_field_value t m f) = true.
  Proof.
    intros Hm Hf. apply ok_msg_iff in Hm. destruct m as [d fs].
    pose proof (find_desc_number _ _ _ _ (proj1 Hwf) Hf) as Hn. cbn [dm_desc] in Hf. rewrite <- Hn in Hf.
    eapply stored_ok; eassumption.
  Qed.

  Lemma scalar_value f v : is_msg_kind (fd_kind f) = false -> fd_is_list f = false ->
    ok_field t f v = true -> sc_okb (fd_kind f) v = true.
  Proof.
    intros Hk Hl H. unfold is_msg_kind in Hk.
    destruct v; unfold ok_field in H; rewrite ?Hl in H; try discriminate H;
      try (destruct (kind_msg (fd_kind f)); discriminate);
      apply andb_true_iff in H; destruct H as [_ H]; eapply ok_elem_scalar; eauto.
  Qed.
  Lemma scalar_merge n ctx f v w p : sc_okb (fd_kind f) v = true ->
    merge_value (S n) t f v w ctx p =
    match merge_scalar (fd_kind f) v w p with Some d => d | None => DPanic end.
  Proof. intros H. cbn [merge_value]. unfold merge_body. destruct v; try reflexivity; destruct (fd_kind f); discriminate H. Qed.

  Lemma scalar_rule ctx m n w p f m' :
    ok_msg t m = true -> find_desc t (dm_desc m) n = Some f ->
    is_msg_kind (fd_kind f) = false -> fd_is_list f = false ->
    merge_field ctx t m n w p = DOk m' [] ->
    forall m0, ok_msg t m0 = true -> dm_desc m0 = dm_desc m ->
    exists m0', merge_field ctx t m0 n w p = DOk m0' [] /\ get_field_value t m0' f = get_field_value t m' f.
  Proof.
    intros Hm Hf Hk Hl H m0 Hm0 Hd. destruct (field_result _ _ _ _ _ _ _ Hf H) as (v & Hv & -> & _).
    apply field_result_conv; [now rewrite Hd|].
    pose proof (stored_value _ _ _ Hm Hf) as S1. rewrite <- Hd in Hf. pose proof (stored_value _ _ _ Hm0 Hf) as S2.
    apply scalar_value in S1; auto. apply scalar_value in S2; auto.
    rewrite scalar_merge in * by assumption.
    destruct (merge_scalar (fd_kind f) (get_field_value t m f) w p) as [d|] eqn:E; [|discriminate]. subst d.
    rewrite (merge_scalar_indep _ _ _ _ _ _ _ S1 S2 E). reflexivity.
  Qed.

  Lemma list_value f v : fd_is_list f = true -> ok_field t f v = true ->
    exists vs, v = VList vs /\ forallb (fun x => ok_elem t x (fd_kind f)) vs = true.
  Proof.
    intros Hl H. destruct v; cbn [ok_field] in H; rewrite ?Hl in H; try discriminate H; [eauto|].
    destruct (kind_msg (fd_kind f)); [|discriminate]. unfold fd_is_list in Hl.
    destruct (fd_is_map f); [|discriminate]. rewrite andb_false_r in Hl. discriminate.
  Qed.

  Lemma push_loop (mv : bytes -> dres value) limit k : forall vs b vs' r,
    loop_until k (fun vs b => match mv b with
                              | DOk x r => DOk (vs ++ [x]) r
                              | DErr e _ => DErr e vs
                              | DPanic => DPanic
                              | DFuel => DFuel
                              end) limit vs b = DOk vs' r ->
    exists xs, vs' = vs ++ xs /\ forall vs0,
    loop_until k (fun vs b => match mv b with
                              | DOk x r => DOk (vs ++ [x]) r
                              | DErr e _ => DErr e vs
                              | DPanic => DPanic
                              | DFuel => DFuel
                              end) limit vs0 b = DOk (vs0 ++ xs) r.
  Proof.
    induction k as [|k IH]; intros vs b vs' r; cbn [loop_until].
    - destruct (length b <=? limit)%nat; [|discriminate]. destruct (length b =? limit)%nat; [|discriminate].
      injection 1 as <- <-. exists []. rewrite app_nil_r. split; [reflexivity|]. intros. now rewrite app_nil_r.
    - destruct (length b <=? limit)%nat.
      + destruct (length b =? limit)%nat; [|discriminate].
        injection 1 as <- <-. exists []. rewrite app_nil_r. split; [reflexivity|]. intros. now rewrite app_nil_r.
      + destruct (mv b) as [x y|? ?| |]; try discriminate. intros H. destruct (IH _ _ _ _ H) as (xs & -> & Hx).
        exists (x :: xs). rewrite <- app_assoc. split; [reflexivity|]. intros vs0. rewrite Hx, <- app_assoc. reflexivity.
  Qed.

  Lemma list_rule ctx m n w p f m' :
    ok_msg t m = true -> find_desc t (dm_desc m) n = Some f -> fd_is_list f = true ->
    merge_field ctx t m n w p = DOk m' [] ->
    exists xs, forall m0 old, ok_msg t m0 = true -> dm_desc m0 = dm_desc m ->
      get_field_value t m0 f = VList old ->
      exists m0', merge_field ctx t m0 n w p = DOk m0' [] /\ get_field_value t m0' f = VList (old ++ xs).
  Proof.
    intros Hm Hf Hl H. destruct (field_result _ _ _ _ _ _ _ Hf H) as (v & Hv & _ & _).
    pose proof (stored_value _ _ _ Hm Hf) as S1. apply list_value in S1; [|exact Hl]. destruct S1 as (vs & Evs & _).
    rewrite Evs in Hv. rewrite mv202 in Hv. cbn [merge_body] in Hv. rewrite Hl in Hv.
    destruct (wt_eqb w WLen && fd_is_packable f) eqn:Ep.
    - set (g := fun b => merge_value 201 t f (kind_default t (fd_kind f)) (kind_wt (fd_kind f)) ctx b).
      unfold merge_loop in Hv. destruct (decode_varint p) as [[len y]| | |] eqn:Ed; try discriminate.
      destruct (N.of_nat (length y) <? len) eqn:El; [discriminate|].
      match type of Hv with dmap VList ?d = _ => destruct d as [vs' r|? ?| |] eqn:E; try discriminate end.
      injection Hv as <- ->. apply (push_loop g) in E. destruct E as (xs & -> & Hx). exists xs.
      intros m0 old Hm0 Hd Hold. apply field_result_conv; [now rewrite Hd|]. rewrite Hold.
      rewrite mv202. cbn [merge_body]. rewrite Hl, Ep. unfold merge_loop.
      rewrite Ed, El. specialize (Hx old). unfold g in Hx. rewrite Hx. reflexivity.
    - destruct (merge_value 201 t f (kind_default t (fd_kind f)) w ctx p) as [x r|? ?| |] eqn:E; try discriminate.
      injection Hv as <- ->. exists [x]. intros m0 old Hm0 Hd Hold. apply field_result_conv; [now rewrite Hd|].
      rewrite Hold. rewrite mv202. cbn [merge_body]. rewrite Hl, Ep, E. reflexivity.
  Qed.

  Lemma map_value f v : fd_is_map f = true -> ok_field t f v = true -> exists kvs, v = VMap kvs.
  Proof.
    intros Hl H. destruct v; cbn [ok_field] in H; rewrite ?Hl in H; try (rewrite ?andb_false_r in H; discriminate H); [|eauto].
    unfold fd_is_list in H. rewrite Hl, andb_false_r in H. discriminate.
  Qed.

  Lemma map_rule ctx m n w p f m' :
    ok_msg t m = true -> find_desc t (dm_desc m) n = Some f -> fd_is_map f = true ->
    merge_field ctx t m n w p = DOk m' [] ->
    exists k v, forall m0 old, ok_msg t m0 = true -> dm_desc m0 = dm_desc m ->
      get_field_value t m0 f = VMap old ->
      exists m0' new, merge_field ctx t m0 n w p = DOk m0' [] /\ get_field_value t m0' f = VMap new /\
        forall k', map_get k' new = if mk_eqb k' k then Some v else map_get k' old.
  Proof.
    intros Hm Hf Hl H. destruct (field_result _ _ _ _ _ _ _ Hf H) as (v & Hv & _ & _).
    pose proof (stored_value _ _ _ Hm Hf) as S1. apply map_value in S1; [|exact Hl]. destruct S1 as (vs & Evs).
    rewrite Evs in Hv. rewrite mv202 in Hv. cbn [merge_body] in Hv. rewrite Hl in Hv.
    destruct (kind_msg (fd_kind f)) as [e|] eqn:Ek; [|discriminate].
    destruct (entry_key t e) as [kf|] eqn:Ekf; [|discriminate].
    destruct (entry_value t e) as [vf|] eqn:Evf; [|discriminate].
    destruct (mk_default (fd_kind kf)) as [k0|] eqn:Emk; [|discriminate].
    match type of Hv with match ?d with _ => _ end = _ => destruct d as [[k' v'] r|? ?| |] eqn:E; try discriminate end.
    injection Hv as <- ->. exists k', v'. intros m0 old Hm0 Hd Hold.
    destruct (field_result_conv ctx m0 n w p f (VMap (map_insert k' v' old))) as (m0' & H1 & H2).
    - now rewrite Hd.
    - rewrite Hold. rewrite mv202. cbn [merge_body]. rewrite Ek, Hl, Ekf, Evf, Emk, E. reflexivity.
    - exists m0', (map_insert k' v' old). split; [exact H1|]. split; [exact H2|]. intros. apply map_get_insert.
  Qed.

  Local Opaque merge_value.

  (** *** Singular messages *)
  Lemma message_value f v i : kind_msg (fd_kind f) = Some i -> fd_is_list f = false -> fd_is_map f = false ->
    ok_field t f v = true -> exists m, v = VMessage m /\ dm_desc m = i /\ ok_msg t m = true.
  Proof.
    intros Hk Hl Hp H. destruct v; cbn [ok_field] in H; rewrite ?Hl, ?Hp in H; try discriminate H;
      rewrite ?Hk in H; try discriminate H; cbn [negb andb] in H;
      eapply ok_elem_msg_inv in H; eauto; destruct H as (m' & E & H); try discriminate E.
  Qed.

  (** enough nested calls are as good as 202 *)
  Lemma step_n j ctx m n w b : (2 * ctx + 2 <= j)%nat -> (j <= 202)%nat ->
    ok_msg t m = true -> tag_ok n -> bytes_ok b ->
    merge_msg_field t (merge_value j t) ctx m n w b = merge_field ctx t m n w b.
  Proof.
    intros Hc Hj Hm Hn Hb. unfold merge_field.
    destruct (merge_msg_field_dle t (merge_value j t) (merge_value 202 t) ctx m n w b) as [E|E]; [|exfalso|exact E].
    { intros. apply merge_value_dle_le. exact Hj. }
    apply ok_msg_iff in Hm.
    assert (G := msg_step_good t Hwf (merge_value j t) ctx (dm_desc m) (Nat.max (msg_depth m) (S ctx)) n w m b).
    rewrite E in G. apply G; auto.
    - intros f v Ho Hs Hi. apply (proj2 (merge_value_good t Hwf j)); auto; apply Nat.le_max_r.
    - apply Nat.le_max_r.
    - split; [reflexivity|]. split; [exact Hm|apply Nat.le_max_l].
  Qed.
  Lemma runs_n j ctx m cs m' : (2 * ctx + 2 <= j)%nat -> (j <= 202)%nat ->
    ok_msg t m = true -> bytes_ok (concat cs) ->
    runs (merge_msg_field t (merge_value j t) ctx) m cs m' <-> runs (merge_field ctx t) m cs m'.
  Proof.
    intros Hc Hj Hm Hb. split; intros H; revert Hm Hb.
    - induction H as [m|m c n w p m1 cs m2 Hk Hs Hr IH]; intros Hm Hb; [constructor|].
      cbn [concat] in Hb. apply bytes_ok_app in Hb. destruct Hb as [Hb1 Hb2].
      pose proof (suffix_ok _ _ (decode_key_suffix _ _ _ _ Hk) Hb1) as Hp.
      pose proof (decode_key_tag_ok _ _ _ _ Hk) as Hn.
      rewrite step_n in Hs by assumption.
      destruct (merge_field_ok t Hwf ctx _ _ _ _ _ _ ltac:(lia) Hm Hn Hp Hs) as [H1 _].
      exact (runs_cons _ _ _ _ _ _ _ _ _ Hk Hs (IH H1 Hb2)).
    - induction H as [m|m c n w p m1 cs m2 Hk Hs Hr IH]; intros Hm Hb; [constructor|].
      cbn [concat] in Hb. apply bytes_ok_app in Hb. destruct Hb as [Hb1 Hb2].
      pose proof (suffix_ok _ _ (decode_key_suffix _ _ _ _ Hk) Hb1) as Hp.
      pose proof (decode_key_tag_ok _ _ _ _ Hk) as Hn.
      destruct (merge_field_ok t Hwf ctx _ _ _ _ _ _ ltac:(lia) Hm Hn Hp Hs) as [H1 _].
      rewrite <- (step_n j) in Hs by assumption.
      exact (runs_cons _ _ _ _ _ _ _ _ _ Hk Hs (IH H1 Hb2)).
  Qed.

  (** a length-delimited sub-message is its payload merged one level down *)
  Lemma sub_message j ctx f i sub w p sub' r :
    (2 * S ctx + 1 <= j)%nat -> (j <= 202)%nat -> fd_kind f = KMessage i ->
    ok_msg t sub = true -> bytes_ok p ->
    merge_value j t f (VMessage sub) w (S ctx) p = DOk (VMessage sub') r <->
    w = WLen /\ exists s, read_delimited p = Ok (s, r) /\ merge_at ctx t sub s = DOk sub' [].
  Proof.
    intros Hj Hj2 Hk Hos Hb. destruct j as [|j]; [lia|].
    assert (E : merge_value (S j) t f (VMessage sub) w (S ctx) p =
      if negb (wt_eqb WLen w) then DErr EWireType (VMessage sub)
      else dmap VMessage (merge_loop (keyed_step (merge_msg_field t (merge_value j t) ctx)) sub p)).
    { cbn [merge_value merge_body]. unfold fd_is_group. rewrite Hk. reflexivity. }
    rewrite E. clear E.
    assert (Rx : forall x s n w b, dext x b (merge_msg_field t (merge_value j t) ctx s n w b)
                  (merge_msg_field t (merge_value j t) ctx s n w (b ++ x))) by (intros; apply merge_step_ext).
    assert (Rv : forall x s n w b, drev x (merge_msg_field t (merge_value j t) ctx s n w (b ++ x))
                  (merge_msg_field t (merge_value j t) ctx s n w b)) by (intros; apply merge_step_rev).
    split.
    - destruct (wt_eqb WLen w) eqn:Ew; [|discriminate]. apply wt_eqb_eq in Ew. cbn [negb]. intros Hv.
      split; [now symmetry|].
      destruct (merge_loop _ sub p) as [s0 r0|? ?| |] eqn:El; try discriminate. injection Hv as -> ->.
      apply (merge_loop_runs _ Rx Rv) in El. destruct El as (body & cs & Hd & -> & Hr).
      exists (concat cs). split; [exact Hd|].
      pose proof (read_delimited_ok _ _ _ Hb Hd) as Hbo.
      pose proof (proj1 (runs_n j ctx sub cs sub' ltac:(lia) ltac:(lia) Hos Hbo) Hr) as Hr'.
      apply (proj2 (merge_at_runs t ctx sub (concat cs) sub' [])). split; [reflexivity|]. exists cs. split; [reflexivity|exact Hr'].
    - intros (-> & s & Hd & Hr). cbn [wt_eqb negb].
      pose proof (read_delimited_ok _ _ _ Hb Hd) as Hbo.
      destruct (proj1 (merge_at_runs t ctx sub s sub' []) Hr) as (_ & cs & -> & Hr2).
      pose proof (proj2 (runs_n j ctx sub cs sub' ltac:(lia) ltac:(lia) Hos Hbo) Hr2) as Hr'.
      rewrite (proj2 (merge_loop_runs _ Rx Rv sub p sub' r)); [reflexivity|]. exists (concat cs), cs.
      split; [exact Hd|]. split; [reflexivity|exact Hr'].
  Qed.

  Lemma message_rule ctx m n w p f i sub :
    (S ctx <= 100)%nat -> ok_msg t m = true -> bytes_ok p ->
    find_desc t (dm_desc m) n = Some f -> fd_kind f = KMessage i ->
    fd_is_list f = false -> fd_is_map f = false -> get_field_value t m f = VMessage sub ->
    forall sub',
    (exists m', merge_field (S ctx) t m n w p = DOk m' [] /\ get_field_value t m' f = VMessage sub') <->
    (w = WLen /\ exists s, read_delimited p = Ok (s, []) /\ merge_at ctx t sub s = DOk sub' []).
  Proof.
    intros Hc Hm Hb Hf Hk Hl Hp Hsub sub'.
    assert (Hos : ok_msg t sub = true).
    { pose proof (stored_value _ _ _ Hm Hf) as S1. eapply message_value in S1; eauto; [|rewrite Hk; reflexivity].
      destruct S1 as (s0 & E & _ & Ho). rewrite Hsub in E. injection E as ->. exact Ho. }
    rewrite <- (sub_message 202 ctx f i sub w p sub' [] ltac:(lia) ltac:(lia) Hk Hos Hb). split.
    - intros (m' & H & Hg'). destruct (field_result _ _ _ _ _ _ _ Hf H) as (v & Hv & Hv' & _).
      rewrite Hg' in Hv'. subst v. rewrite Hsub in Hv. exact Hv.
    - intros H. apply field_result_conv; [exact Hf|]. rewrite Hsub. exact H.
  Qed.

  Lemma group_rule ctx m n w p f i sub :
    (S ctx <= 100)%nat -> ok_msg t m = true -> bytes_ok p ->
    find_desc t (dm_desc m) n = Some f -> fd_kind f = KGroup i ->
    fd_is_list f = false -> fd_is_map f = false -> get_field_value t m f = VMessage sub ->
    forall sub',
    (exists m', merge_field (S ctx) t m n w p = DOk m' [] /\ get_field_value t m' f = VMessage sub') <->
    (w = WStart /\ exists cs e, p = concat cs ++ e /\ decode_key e = Ok (n, WEnd, []) /\
       Forall (key_is (fun _ w => w <> WEnd)) cs /\ runs (merge_field ctx t) sub cs sub').
  Proof.
    intros Hc Hm Hb Hf Hk Hl Hp Hsub sub'.
    assert (Hkm : kind_msg (fd_kind f) = Some i) by (rewrite Hk; reflexivity).
    assert (Hg : fd_is_group f = true) by (unfold fd_is_group; rewrite Hk; reflexivity).
    pose proof (find_desc_number _ _ _ _ (proj1 Hwf) Hf) as Hnum.
    assert (Hos : ok_msg t sub = true).
    { pose proof (stored_value _ _ _ Hm Hf) as S1. eapply message_value in S1; eauto.
      destruct S1 as (s0 & E & _ & Ho). rewrite Hsub in E. injection E as ->. exact Ho. }
    assert (E : merge_value 202 t f (VMessage sub) w (S ctx) p =
      if negb (wt_eqb WStart w) then DErr EWireType (VMessage sub)
      else dmap VMessage (group_loop (S (length p)) (merge_msg_field t (merge_value 201 t) ctx) n sub p)).
    { rewrite mv202. cbn [merge_body]. rewrite Hkm, Hg, Hnum. reflexivity. }
    assert (Rx : forall x s n w b, dext x b (merge_msg_field t (merge_value 201 t) ctx s n w b)
                  (merge_msg_field t (merge_value 201 t) ctx s n w (b ++ x))) by (intros; apply merge_step_ext).
    assert (Rv : forall x s n w b, drev x (merge_msg_field t (merge_value 201 t) ctx s n w (b ++ x))
                  (merge_msg_field t (merge_value 201 t) ctx s n w b)) by (intros; apply merge_step_rev).
    split.
    - intros (m' & H & Hg'). destruct (field_result _ _ _ _ _ _ _ Hf H) as (v & Hv & Hv' & _).
      rewrite Hg' in Hv'. subst v. rewrite Hsub, E in Hv.
      destruct (wt_eqb WStart w) eqn:Ew; [|discriminate]. apply wt_eqb_eq in Ew. cbn [negb] in Hv.
      split; [now symmetry|].
      destruct (group_loop _ _ _ sub p) as [s0 r|? ?| |] eqn:El; try discriminate. injection Hv as -> ->.
      apply (group_runs _ Rx Rv) in El. destruct El as (cs & e & Ep & Hr & He & Hfa).
      rewrite app_nil_r in Ep. exists cs, e. split; [exact Ep|]. split; [exact He|]. split; [exact Hfa|].
      refine (proj1 (runs_n 201 ctx sub cs sub' ltac:(lia) ltac:(lia) Hos _) Hr).
      rewrite Ep in Hb. apply bytes_ok_app in Hb. apply Hb.
    - intros (-> & cs & e & Ep & He & Hfa & Hr). apply field_result_conv; [exact Hf|]. rewrite Hsub, E. cbn [wt_eqb negb].
      assert (Hbo : bytes_ok (concat cs)) by (rewrite Ep in Hb; apply bytes_ok_app in Hb; apply Hb).
      pose proof (proj2 (runs_n 201 ctx sub cs sub' ltac:(lia) ltac:(lia) Hos Hbo) Hr) as Hr'.
      pose proof (runs_group _ Rx Rv n _ _ _ Hr' Hfa e [] (S (length p)) He) as G.
      rewrite app_nil_r in G. rewrite Ep at 2. rewrite G; [reflexivity|]. rewrite <- Ep. lia.
  Qed.
End Rules.
