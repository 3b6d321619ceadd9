(** The recursion limit (C05): the number of nested calls needed to decode does
    not depend on the input, and input nested deeper than the limit is rejected. *)
From Verif Require Import Base BaseProofs Wire WireProofs LoopProofs Unknown UnknownProofs Value Descr
  Fields Codec DescrOk DescrProofs FieldsProofs MergeProofs.

(** ** More fuel never changes a result *)

(** [d2] is [d1] unless [d1] ran out of fuel *)
Definition dle {S} (d1 d2 : dres S) : Prop := d1 = DFuel \/ d1 = d2.

Lemma dle_refl {S} (d : dres S) : dle d d. Proof. now right. Qed.
Lemma dle_trans {S} (a b c : dres S) : dle a b -> dle b c -> dle a c.
Proof. intros [->| ->]; [now left|auto]. Qed.
Lemma dle_dmap {A B} (g : A -> B) d1 d2 : dle d1 d2 -> dle (dmap g d1) (dmap g d2).
Proof. intros [->| ->]; [now left|now right]. Qed.

Lemma loop_until_dle {S} (s1 s2 : S -> bytes -> dres S) limit :
  (forall s b, dle (s1 s b) (s2 s b)) ->
  forall k s b, dle (loop_until k s1 limit s b) (loop_until k s2 limit s b).
Proof.
  intros H. induction k as [|k IH]; intros s b; cbn [loop_until];
    destruct (length b <=? limit)%nat; try apply dle_refl.
  destruct (H s b) as [->| ->]; [now left|].
  destruct (s2 s b); try apply dle_refl. apply IH.
Qed.
Lemma merge_loop_dle {S} (s1 s2 : S -> bytes -> dres S) s b :
  (forall s b, dle (s1 s b) (s2 s b)) -> dle (merge_loop s1 s b) (merge_loop s2 s b).
Proof.
  intros H. unfold merge_loop. destruct (decode_varint b) as [[len r]| | |]; try apply dle_refl.
  destruct (N.of_nat (length r) <? len); [apply dle_refl|]. now apply loop_until_dle.
Qed.
Lemma keyed_step_dle {S} (s1 s2 : S -> N -> wt -> bytes -> dres S) s b :
  (forall s n w b, dle (s1 s n w b) (s2 s n w b)) -> dle (keyed_step s1 s b) (keyed_step s2 s b).
Proof.
  intros H. unfold keyed_step. destruct (decode_key b) as [[[n w] r]| | |]; try apply dle_refl. apply H.
Qed.
Lemma group_loop_dle {S} (s1 s2 : S -> N -> wt -> bytes -> dres S) tag :
  (forall s n w b, dle (s1 s n w b) (s2 s n w b)) ->
  forall k s b, dle (group_loop k s1 tag s b) (group_loop k s2 tag s b).
Proof.
  intros H. induction k as [|k IH]; intros s b; [apply dle_refl|]. cbn [group_loop].
  destruct (decode_key b) as [[[n w] r]| | |]; try apply dle_refl.
  destruct (wt_eqb w WEnd); [apply dle_refl|].
  destruct (H s n w r) as [->| ->]; [now left|].
  destruct (s2 s n w r); try apply dle_refl. apply IH.
Qed.
Lemma stream_loop_dle {S} (s1 s2 : S -> N -> wt -> bytes -> dres S) :
  (forall s n w b, dle (s1 s n w b) (s2 s n w b)) ->
  forall k s b, dle (stream_loop k s1 s b) (stream_loop k s2 s b).
Proof.
  intros H. induction k as [|k IH]; intros s b; (destruct b as [|x b]; [apply dle_refl|]).
  - apply dle_refl.
  - rewrite !stream_loop_unfold by discriminate.
    destruct (decode_key (x :: b)) as [[[n w] r]| | |]; try apply dle_refl.
    destruct (H s n w r) as [->| ->]; [now left|].
    destruct (s2 s n w r); try apply dle_refl. apply IH.
Qed.

Lemma merge_msg_field_dle t mv1 mv2 ctx m n w b :
  (forall f v w ctx b, dle (mv1 f v w ctx b) (mv2 f v w ctx b)) ->
  dle (merge_msg_field t mv1 ctx m n w b) (merge_msg_field t mv2 ctx m n w b).
Proof.
  intros H. unfold merge_msg_field. destruct (find_desc t (dm_desc m) n) as [f|]; [|apply dle_refl].
  unfold merge_into.
  destruct (H f (fs_get t f (fs_get_mut t f (dm_fields m))) w ctx b) as [->| ->]; [now left|apply dle_refl].
Qed.

Lemma merge_body_dle t mv1 mv2 f v w ctx b :
  (forall f v w ctx b, dle (mv1 f v w ctx b) (mv2 f v w ctx b)) ->
  dle (merge_body t mv1 f v w ctx b) (merge_body t mv2 f v w ctx b).
Proof.
  intros IH.
  assert (Hm : forall c s k w b, dle (merge_msg_field t mv1 c s k w b)
                                     (merge_msg_field t mv2 c s k w b)).
  { intros. apply merge_msg_field_dle, IH. }
  unfold merge_body. destruct v; try apply dle_refl.
  - destruct (kind_msg (fd_kind f)); [|apply dle_refl].
    destruct (fd_is_group f).
    + destruct (negb (wt_eqb WStart w)); [apply dle_refl|]. destruct ctx; [apply dle_refl|].
      apply dle_dmap, group_loop_dle. intros. apply Hm.
    + destruct (negb (wt_eqb WLen w)); [apply dle_refl|]. destruct ctx; [apply dle_refl|].
      apply dle_dmap, merge_loop_dle. intros. apply keyed_step_dle. intros. apply Hm.
  - destruct (fd_is_list f); [|apply dle_refl].
    destruct (wt_eqb w WLen && fd_is_packable f).
    + apply dle_dmap, merge_loop_dle. intros s b0.
      destruct (IH f (kind_default t (fd_kind f)) (kind_wt (fd_kind f)) ctx b0) as [->| ->];
        [now left|apply dle_refl].
    + destruct (IH f (kind_default t (fd_kind f)) w ctx b) as [->| ->]; [now left|apply dle_refl].
  - destruct (kind_msg (fd_kind f)) as [e|]; [|apply dle_refl]. destruct (fd_is_map f); [|apply dle_refl].
    destruct (entry_key t e) as [kf|]; [|apply dle_refl].
    destruct (entry_value t e) as [vf|]; [|apply dle_refl].
    destruct (mk_default (fd_kind kf)); [|apply dle_refl].
    match goal with |- dle (match ?x with _ => _ end) (match ?y with _ => _ end) =>
      assert (Hd : dle x y) end.
    { apply merge_loop_dle. intros s b0. apply keyed_step_dle. intros kv num w' b1.
      destruct (num =? MAP_KEY_NUMBER); [apply dle_refl|].
      destruct (num =? MAP_VALUE_NUMBER); [|apply dle_refl]. apply dle_dmap, IH. }
    destruct Hd as [->| ->]; [now left|apply dle_refl].
Qed.

Lemma merge_value_dle t n : forall f v w ctx b,
  dle (merge_value n t f v w ctx b) (merge_value (S n) t f v w ctx b).
Proof.
  induction n as [|n IH]; intros f v w ctx b; [now left|]. apply merge_body_dle, IH.
Qed.

Lemma merge_value_dle_le t n n' f v w ctx b :
  (n <= n')%nat -> dle (merge_value n t f v w ctx b) (merge_value n' t f v w ctx b).
Proof.
  induction 1 as [|n' _ IH]; [apply dle_refl|]. eapply dle_trans; [exact IH|apply merge_value_dle].
Qed.

Lemma msg_merge_fuel_dle t n n' m b :
  (n <= n')%nat -> dle (msg_merge_fuel n t m b) (msg_merge_fuel n' t m b).
Proof.
  intros H. unfold msg_merge_fuel. apply stream_loop_dle. intros. apply merge_msg_field_dle.
  intros. now apply merge_value_dle_le.
Qed.

(** 202 levels of calls suffice whatever the input *)
Lemma msg_merge_202 t d D m b n :
  wf t -> bytes_ok b -> msg_inv t d D m -> (202 <= n)%nat ->
  msg_merge_fuel n t m b = msg_merge_fuel 202 t m b.
Proof.
  intros Hwf Hb (Hd & Hm & Hdep) Hn.
  assert (Hg := msg_merge_good t Hwf 202 d (Nat.max D 101) m b).
  destruct (msg_merge_fuel_dle t 202 n m b Hn) as [E|E]; [|now symmetry].
  rewrite E in Hg. exfalso. change ctx0 with 100%nat in Hg. apply Hg; auto.
  - apply Nat.le_max_r.
  - split; [exact Hd|]. split; [exact Hm|]. etransitivity; [exact Hdep|apply Nat.le_max_l].
Qed.

(** ** Deep input is rejected *)

(** One level of nesting in the input: the number and form of the record. *)
Inductive layer :=
| LMsg (num : N)            (* length-delimited message *)
| LGroup (num : N)          (* group *)
| LMapValue (num : N).      (* message value of a map entry *)

(** [inner] inside the given levels, outermost first *)
Fixpoint wrap (p : list layer) (inner : bytes) : bytes :=
  match p with
  | [] => inner
  | LMsg n :: p' => encode_key n WLen ++ write_delimited (wrap p' inner)
  | LGroup n :: p' => encode_key n WStart ++ wrap p' inner ++ encode_key n WEnd
  | LMapValue n :: p' =>
      encode_key n WLen ++
      write_delimited (encode_key MAP_VALUE_NUMBER WLen ++ write_delimited (wrap p' inner))
  end.

(** the levels follow declared fields or extensions of message type, starting
    at message type [d] *)
Fixpoint path_ok (t : tables) (d : nat) (p : list layer) : Prop :=
  match p with
  | [] => True
  | LMsg n :: p' =>
      exists f i, find_desc t d n = Some f /\ fd_kind f = KMessage i /\ fd_is_map f = false
        /\ path_ok t i p'
  | LGroup n :: p' =>
      exists f i, find_desc t d n = Some f /\ fd_kind f = KGroup i /\ fd_is_map f = false
        /\ path_ok t i p'
  | LMapValue n :: p' =>
      exists f e vf i, find_desc t d n = Some f /\ kind_msg (fd_kind f) = Some e
        /\ fd_is_map f = true /\ entry_value t e = Some vf /\ fd_kind vf = KMessage i
        /\ path_ok t i p'
  end.

Definition layer_num (l : layer) : N := match l with LMsg n | LGroup n | LMapValue n => n end.
Definition layer_wt (l : layer) : wt := match l with LGroup _ => WStart | _ => WLen end.

Definition is_rec {S} (d : dres S) : Prop := exists s, d = DErr ERecursion s.

Section Reject.
  Variable t : tables.
  Hypothesis Hwf : wf t.

  Lemma is_rec_dmap {A B} (g : A -> B) d : is_rec d -> is_rec (dmap g d).
  Proof. intros [s ->]. eexists. reflexivity. Qed.

  Lemma merge_loop_rec {S} (step : S -> N -> wt -> bytes -> dres S) s n w body :
    tag_ok n -> N.of_nat (length (encode_key n w ++ body)) < two64 ->
    (forall rest, is_rec (step s n w (body ++ rest))) ->
    forall rest, is_rec (merge_loop (keyed_step step) s (write_delimited (encode_key n w ++ body) ++ rest)).
  Proof.
    intros Hn Hl H rest. unfold merge_loop, write_delimited.
    rewrite <- app_assoc, decode_encode_varint by exact Hl.
    destruct (N.of_nat (length ((encode_key n w ++ body) ++ rest)) <? _) eqn:E.
    { rewrite app_length in E. lia. }
    cbn [loop_until]. rewrite Nat2N.id.
    pose proof (encode_key_nonempty n w).
    replace (length ((encode_key n w ++ body) ++ rest) <=? _)%nat with false
      by (symmetry; apply Nat.leb_gt; rewrite !app_length; lia).
    unfold keyed_step at 1. rewrite <- app_assoc, decode_encode_key by exact Hn.
    destruct (H rest) as [s' ->]. eexists. reflexivity.
  Qed.

  Lemma group_loop_rec {S} (step : S -> N -> wt -> bytes -> dres S) k tag s n w body rest :
    tag_ok n -> w <> WEnd -> is_rec (step s n w (body ++ rest)) ->
    is_rec (group_loop (Datatypes.S k) step tag s ((encode_key n w ++ body) ++ rest)).
  Proof.
    intros Hn Hw [s' H]. cbn [group_loop]. rewrite <- app_assoc, decode_encode_key by exact Hn.
    replace (wt_eqb w WEnd) with false by (destruct w; congruence || reflexivity).
    rewrite H. eexists. reflexivity.
  Qed.

  Definition wrap_body (l : layer) (p : list layer) (inner : bytes) : bytes :=
    match l with
    | LMsg n => write_delimited (wrap p inner)
    | LGroup n => wrap p inner ++ encode_key n WEnd
    | LMapValue n => write_delimited (encode_key MAP_VALUE_NUMBER WLen ++ write_delimited (wrap p inner))
    end.
  Lemma wrap_cons l p inner : wrap (l :: p) inner = encode_key (layer_num l) (layer_wt l) ++ wrap_body l p inner.
  Proof. destruct l; reflexivity. Qed.

  Lemma path_tag d l p : path_ok t d (l :: p) -> tag_ok (layer_num l).
  Proof.
    pose proof (proj1 Hwf) as Ht. destruct l; cbn.
    - intros (f & i & H & _). rewrite <- (find_desc_number _ _ _ _ Ht H). apply (fo_tag _ _ (find_desc_ok _ _ _ _ Ht H)).
    - intros (f & i & H & _). rewrite <- (find_desc_number _ _ _ _ Ht H). apply (fo_tag _ _ (find_desc_ok _ _ _ _ Ht H)).
    - intros (f & e & vf & i & H & _). rewrite <- (find_desc_number _ _ _ _ Ht H). apply (fo_tag _ _ (find_desc_ok _ _ _ _ Ht H)).
  Qed.

  (** merging the body of an over-deep record into a message fails *)
  Definition rejects (n ctx : nat) (d : nat) (l : layer) (p : list layer) : Prop :=
    forall m D inner rest, msg_inv t d D m ->
    N.of_nat (length (wrap (l :: p) inner)) < two64 ->
    is_rec (merge_msg_field t (merge_value n t) ctx m (layer_num l) (layer_wt l)
              (wrap_body l p inner ++ rest)).

  (** the same for a message-typed element *)
  Lemma elem_rejects n ctx i p f m D inner rest (g : bool) :
    (forall ctx', ctx = S ctx' ->
       exists l p', p = l :: p' /\ path_ok t i p /\ rejects n ctx' i l p') ->
    fd_kind f = (if g then KGroup i else KMessage i) ->
    msg_inv t i D m ->
    N.of_nat (length (wrap p inner)) < two64 ->
    is_rec (merge_value (S n) t f (VMessage m) (if g then WStart else WLen) ctx
       ((if g then wrap p inner ++ encode_key (fd_number f) WEnd
         else write_delimited (wrap p inner)) ++ rest)).
  Proof.
    intros Hr Hk Hm Hl. cbn [merge_value merge_body]. unfold fd_is_group. rewrite Hk.
    destruct g; cbn [kind_msg]; cbn [wt_eqb negb]; (destruct ctx as [|ctx']; [eexists; reflexivity|]);
      destruct (Hr ctx' eq_refl) as (l & p' & -> & Hp & Hrej); apply is_rec_dmap;
      rewrite wrap_cons in *.
    - rewrite <- (app_assoc (encode_key _ _ ++ _)). apply group_loop_rec.
      + eapply path_tag, Hp.
      + destruct l; discriminate.
      + eapply Hrej; [exact Hm|]. rewrite wrap_cons. exact Hl.
    - apply merge_loop_rec; auto.
      + eapply path_tag, Hp.
      + intros rest'. eapply Hrej; [exact Hm|]. rewrite wrap_cons. exact Hl.
  Qed.

  Lemma write_delimited_bound s : N.of_nat (length s) <= N.of_nat (length (write_delimited s)).
  Proof. unfold write_delimited. rewrite app_length. lia. Qed.

  Lemma wrap_body_bound l p inner :
    N.of_nat (length (wrap p inner)) <= N.of_nat (length (wrap (l :: p) inner)).
  Proof.
    rewrite wrap_cons, app_length.
    assert (N.of_nat (length (wrap p inner)) <= N.of_nat (length (wrap_body l p inner))); [|lia].
    destruct l; cbn [wrap_body].
    - apply write_delimited_bound.
    - rewrite app_length. lia.
    - etransitivity; [|apply write_delimited_bound]. rewrite app_length.
      etransitivity; [apply write_delimited_bound|]. lia.
  Qed.

  Lemma new_inv i D : (i < length (t_messages t))%nat -> msg_inv t i D (new_msg i).
  Proof. intros H. split; [reflexivity|]. split; [now apply new_msg_ok|]. cbn. lia. Qed.

  Lemma merge_into_rec mv f m w ctx b :
    is_rec (mv f (fs_get t f (dm_fields m)) w ctx b) -> is_rec (merge_into t mv f m w ctx b).
  Proof.
    intros [s H]. unfold merge_into. rewrite get_mut_get_self, H. eexists. reflexivity.
  Qed.

  Lemma field_msg_value d f D m :
    find_desc t d (fd_number f) = Some f -> msg_inv t d D m -> fd_is_map f = false ->
    forall i, kind_msg (fd_kind f) = Some i ->
    (exists m', fs_get t f (dm_fields m) = VMessage m' /\ exists D', msg_inv t i D' m') \/
    (exists vs, fs_get t f (dm_fields m) = VList vs /\ fd_is_list f = true).
  Proof.
    intros Hf (Hd & Hok & _) Hm i Hk. destruct m as [d0 fs]. cbn in Hd. subst d0. cbn [dm_fields].
    pose proof (stored_ok t Hwf d fs f Hok Hf) as Hv.
    destruct (fs_get t f fs) eqn:E; cbn [ok_field] in Hv;
      try (rewrite !andb_true_iff in Hv; destruct Hv as [_ Hv];
           destruct (ok_elem_msg_inv _ _ _ _ Hk Hv) as (m' & E' & Hd' & Hok'); try discriminate).
    - injection E' as ->. left. exists m'. split; [reflexivity|].
      exists (msg_depth m'). split; [exact Hd'|]. split; [now apply ok_msg_iff|lia].
    - right. exists vs. split; [reflexivity|]. now destruct (fd_is_list f).
    - rewrite Hm in Hv. destruct (kind_msg (fd_kind f)); discriminate.
  Qed.

  Lemma kind_index d n f i : find_desc t d n = Some f -> kind_msg (fd_kind f) = Some i ->
    (i < length (t_messages t))%nat.
  Proof.
    intros Hf Hk. pose proof (fo_kind _ _ (find_desc_ok _ _ _ _ (proj1 Hwf) Hf)) as H.
    destruct (fd_kind f); cbn in *; try discriminate; injection Hk as <-; now apply Nat.ltb_lt.
  Qed.

  Lemma deep_rejected ctx : forall n d l p,
    (2 * ctx + 2 <= n)%nat -> path_ok t d (l :: p) -> (ctx <= length p)%nat ->
    rejects n ctx d l p.
  Proof.
    induction ctx as [ctx IH] using (well_founded_induction lt_wf).
    intros n d l p Hn Hp Hlen m D inner rest Hm Hsz.
    pose proof (proj1 Hwf) as Ht.
    assert (Hin : forall n0 i, (2 * ctx <= n0)%nat -> path_ok t i p ->
      forall ctx', ctx = S ctx' -> exists l' p', p = l' :: p' /\ path_ok t i p /\ rejects n0 ctx' i l' p').
    { intros n0 i Hn0 Hpi ctx' ->. destruct p as [|l' p']; [cbn in Hlen; lia|].
      exists l', p'. split; [reflexivity|]. split; [exact Hpi|]. cbn in Hlen. apply IH; auto; lia. }
    assert (Hsz' : N.of_nat (length (wrap p inner)) < two64).
    { eapply N.le_lt_trans; [apply (wrap_body_bound l)|exact Hsz]. }
    destruct n as [|[|n]]; try lia.
    unfold merge_msg_field.
    assert (Hdesc : dm_desc m = d) by apply Hm. rewrite Hdesc.
    destruct l as [num|num|num]; cbn [layer_num layer_wt wrap_body path_ok] in *.
    - destruct Hp as (f & i & Hf & Hk & Hmap & Hp). rewrite Hf.
      pose proof (find_desc_number _ _ _ _ Ht Hf) as En. subst num.
      assert (Hki : kind_msg (fd_kind f) = Some i) by now rewrite Hk.
      apply merge_into_rec.
      destruct (field_msg_value d f D m Hf Hm Hmap i Hki) as [(m' & -> & D' & Hm')|(vs & -> & Hl)].
      + apply (elem_rejects (S n) ctx i p f m' D' inner rest false); auto. apply Hin; auto. lia.
      + cbn [merge_value merge_body]. rewrite Hl. unfold fd_is_packable. rewrite Hk.
        cbn [is_packable kind_default wt_eqb andb]. change (merge_body t (merge_value n t)) with (merge_value (S n) t).
        destruct (elem_rejects n ctx i p f (new_msg i) 0 inner rest false) as [s ->]; auto.
        * apply Hin; auto. lia.
        * apply new_inv. eapply kind_index; eassumption.
        * eexists. reflexivity.
    - destruct Hp as (f & i & Hf & Hk & Hmap & Hp). rewrite Hf.
      pose proof (find_desc_number _ _ _ _ Ht Hf) as En. subst num.
      assert (Hki : kind_msg (fd_kind f) = Some i) by now rewrite Hk.
      apply merge_into_rec.
      destruct (field_msg_value d f D m Hf Hm Hmap i Hki) as [(m' & -> & D' & Hm')|(vs & -> & Hl)].
      + apply (elem_rejects (S n) ctx i p f m' D' inner rest true); auto. apply Hin; auto. lia.
      + cbn [merge_value merge_body]. rewrite Hl. unfold fd_is_packable. rewrite Hk.
        cbn [is_packable kind_default wt_eqb andb]. change (merge_body t (merge_value n t)) with (merge_value (S n) t).
        destruct (elem_rejects n ctx i p f (new_msg i) 0 inner rest true) as [s ->]; auto.
        * apply Hin; auto. lia.
        * apply new_inv. eapply kind_index; eassumption.
        * eexists. reflexivity.
    - destruct Hp as (f & e & vf & i & Hf & Hki & Hmap & Hev & Hk & Hp). rewrite Hf.
      pose proof (find_desc_number _ _ _ _ Ht Hf) as En. subst num.
      apply merge_into_rec.
      assert (Hv : exists kvs, fs_get t f (dm_fields m) = VMap kvs).
      { destruct m as [d0 fs]. cbn in Hdesc. subst d0. cbn [dm_fields].
        pose proof (stored_ok t Hwf d fs f (proj1 (proj2 Hm)) Hf) as Hv.
        assert (Hl : fd_is_list f = false) by (unfold fd_is_list; rewrite Hmap; now rewrite andb_false_r).
        destruct (fs_get t f fs); cbn [ok_field] in Hv; rewrite ?Hl, ?Hmap in Hv; try discriminate; eauto. }
      destruct Hv as [kvs ->].
      pose proof (find_desc_shape _ _ _ _ Hwf Hf) as Hsh.
      destruct (fs_map _ _ Hsh Hmap) as (e' & kf & vf' & k0 & H1 & H2 & H3 & H4 & H5 & H6).
      rewrite Hki in H1. injection H1 as <-. rewrite Hev in H3. injection H3 as <-.
      cbn [merge_value merge_body]. rewrite Hki, Hmap, H2, Hev, H4.
      change (merge_body t (merge_value n t)) with (merge_value (S n) t).
      match goal with |- is_rec (match ?x with _ => _ end) => assert (Hr : is_rec x) end.
      { apply merge_loop_rec.
        - unfold tag_ok, MAP_VALUE_NUMBER. lia.
        - eapply N.le_lt_trans; [apply write_delimited_bound|].
          eapply N.le_lt_trans; [|exact Hsz]. cbn [wrap]. rewrite (app_length (encode_key _ _)). lia.
        - intros rest'. cbn [N.eqb MAP_VALUE_NUMBER MAP_KEY_NUMBER Pos.eqb snd fst].
          apply is_rec_dmap.
          pose proof (get_field_map t Hwf _ _ _ Hev H6) as Hvm.
          assert (Hd : fd_default_value t vf = VMessage (new_msg i)).
          { unfold fd_default_value. rewrite (is_list_repeated _ H6), Hvm.
            destruct (fd_default vf) as [dv|] eqn:Ed; [|now rewrite Hk].
            pose proof (fo_default _ _ (get_field_ok _ _ _ _ Ht Hev) _ Ed) as Hb. rewrite Hk in Hb.
            destruct dv; discriminate. }
          rewrite Hd.
          apply (elem_rejects n ctx i p vf (new_msg i) 0 inner rest' false); auto.
          + apply Hin; auto. lia.
          + apply new_inv. pose proof (fo_kind _ _ (get_field_ok _ _ _ _ Ht Hev)) as Hko.
            rewrite Hk in Hko. cbn in Hko. now apply Nat.ltb_lt. }
      destruct Hr as [s ->]. eexists. reflexivity.
  Qed.

  (** A record nested more than 100 levels deep makes decoding fail, whatever
      the innermost bytes and whatever follows. *)
  Lemma deep_input_rejected d D m p inner rest :
    msg_inv t d D m -> path_ok t d p -> (100 < length p)%nat ->
    N.of_nat (length (wrap p inner)) < two64 ->
    exists m', msg_merge t m (wrap p inner ++ rest) = DErr ERecursion m'.
  Proof.
    intros Hm Hp Hl Hsz. destruct p as [|l p]; [cbn in Hl; lia|].
    unfold msg_merge, msg_merge_fuel.
    remember (merge_fuel (wrap (l :: p) inner ++ rest)) as n eqn:En.
    assert (Hn : (202 <= n)%nat) by (subst n; unfold merge_fuel; lia). clear En.
    pose proof (wrap_cons l p inner) as Ew. rewrite Ew.
    pose proof (encode_key_nonempty (layer_num l) (layer_wt l)).
    destruct (length ((encode_key (layer_num l) (layer_wt l) ++ wrap_body l p inner) ++ rest)) as [|k] eqn:Ek.
    { rewrite !app_length in Ek. lia. }
    rewrite stream_loop_unfold.
    2: { intros C. rewrite C in Ek. discriminate. }
    rewrite <- app_assoc, decode_encode_key by (eapply path_tag; exact Hp).
    destruct (deep_rejected ctx0 n d l p) with (m := m) (D := D) (inner := inner) (rest := rest) as [s Hs]; auto.
    - cbn [length] in Hl. change ctx0 with 100%nat. lia.
    - rewrite Hs. eexists. reflexivity.
  Qed.
End Reject.

(** The same for groups among unknown fields *)
Fixpoint wrap_unknown (nums : list N) (inner : bytes) : bytes :=
  match nums with
  | [] => inner
  | n :: r => encode_key n WStart ++ wrap_unknown r inner
  end.

Lemma unknown_deep ctx : forall num nums inner,
  Forall tag_ok nums -> (ctx <= length nums)%nat ->
  uf_decode_value ctx num WStart (wrap_unknown nums inner) = Err ERecursion.
Proof.
  induction ctx as [|ctx IH]; intros num nums inner Hn Hl; [reflexivity|].
  destruct nums as [|n nums]; [cbn in Hl; lia|]. inversion Hn; subst.
  cbn [uf_decode_value wrap_unknown group_loop]. rewrite decode_encode_key by assumption.
  cbn [wt_eqb]. rewrite IH; [reflexivity|assumption|]. cbn in Hl. lia.
Qed.

Lemma deep_unknown_rejected t m num nums inner :
  find_desc t (dm_desc m) num = None -> tag_ok num -> Forall tag_ok nums ->
  (100 <= length nums)%nat ->
  msg_merge t m (wrap_unknown (num :: nums) inner) = DErr ERecursion m.
Proof.
  intros Hf Hn Hns Hl. unfold msg_merge, msg_merge_fuel.
  remember (merge_fuel (wrap_unknown (num :: nums) inner)) as n eqn:En. clear En.
  cbn [wrap_unknown].
  pose proof (encode_key_nonempty num WStart).
  destruct (length (encode_key num WStart ++ wrap_unknown nums inner)) as [|k] eqn:Ek.
  { rewrite !app_length in Ek. lia. }
  rewrite stream_loop_unfold.
  2: { intros C. rewrite C in Ek. discriminate. }
  rewrite decode_encode_key by assumption. unfold merge_msg_field. rewrite Hf.
  rewrite unknown_deep; auto.
Qed.
