(** Decoding reads a prefix: what follows is never looked at by a successful
    read, and the rest is a suffix of the input. *)
From Verif Require Import Base BaseProofs Wire WireProofs LoopProofs Unknown UnknownProofs
  Value Descr Fields Codec DescrOk DescrProofs FieldsProofs LenProofs MergeProofs DepthProofs.

Definition dsuf {S} (b : bytes) (d : dres S) : Prop :=
  match d with DOk _ r => suffix r b | _ => True end.

Lemma dsuf_trans {S} r b (d : dres S) : dsuf r d -> suffix r b -> dsuf b d.
Proof. destruct d; cbn; auto. intros H1 H2. eapply suffix_trans; eassumption. Qed.
Lemma dsuf_dmap {A B} (g : A -> B) b d : dsuf b d -> dsuf b (dmap g d).
Proof. destruct d; auto. Qed.
Lemma dapp_dmap {A B} (g : A -> B) x d1 d2 : dapp x d1 d2 -> dapp x (dmap g d1) (dmap g d2).
Proof. destruct d1; cbn; auto. intros ->. reflexivity. Qed.

Lemma loop_until_dsuf {S} (step : S -> bytes -> dres S) limit :
  (forall s b, dsuf b (step s b)) ->
  forall k s b, dsuf b (loop_until k step limit s b).
Proof.
  intros Hs. induction k as [|k IH]; intros s b; cbn [loop_until];
    (destruct (length b <=? limit)%nat; [destruct (length b =? limit)%nat; [apply suffix_refl|exact I]|]).
  - exact I.
  - specialize (Hs s b). destruct (step s b); try exact I. cbn in Hs. eapply dsuf_trans; [apply IH|exact Hs].
Qed.
Lemma merge_loop_dsuf {S} (step : S -> bytes -> dres S) s b :
  (forall s b, dsuf b (step s b)) -> dsuf b (merge_loop step s b).
Proof.
  intros Hs. unfold merge_loop. destruct (decode_varint b) as [[len r]| | |] eqn:E; try exact I.
  destruct (N.of_nat (length r) <? len); [exact I|].
  eapply dsuf_trans; [apply loop_until_dsuf, Hs|eapply decode_varint_suffix, E].
Qed.
Lemma keyed_step_dsuf {S} (step : S -> N -> wt -> bytes -> dres S) s b :
  (forall s n w b, dsuf b (step s n w b)) -> dsuf b (keyed_step step s b).
Proof.
  intros Hs. unfold keyed_step. destruct (decode_key b) as [[[n w] r]| | |] eqn:E; try exact I.
  eapply dsuf_trans; [apply Hs|eapply decode_key_suffix, E].
Qed.
Lemma group_loop_dsuf {S} (step : S -> N -> wt -> bytes -> dres S) tag :
  (forall s n w b, dsuf b (step s n w b)) ->
  forall k s b, dsuf b (group_loop k step tag s b).
Proof.
  intros Hs. induction k as [|k IH]; intros s b; [exact I|]. cbn [group_loop].
  destruct (decode_key b) as [[[n w] r]| | |] eqn:E; try exact I.
  apply decode_key_suffix in E. destruct (wt_eqb w WEnd); [destruct (n =? tag); [exact E|exact I]|].
  specialize (Hs s n w r). destruct (step s n w r); try exact I. cbn in Hs.
  eapply dsuf_trans; [apply IH|eapply suffix_trans; eassumption].
Qed.

(** what a read of one record does when [x] is appended: [reads] for plain
    results, [dapp] and [dsuf] for the ones carrying a state *)
Definition rext {A} (x b : bytes) (r1 r2 : res (A * bytes)) : Prop :=
  match r1 with
  | Ok (a, r) => suffix r b /\ r2 = Ok (a, r ++ x)
  | _ => True
  end.
Definition dext {S} (x b : bytes) (d1 d2 : dres S) : Prop := dsuf b d1 /\ dapp x d1 d2.

Lemma rext_dlift {A S} x b (dflt : S) (g : A -> S) r1 r2 :
  rext x b r1 r2 -> dext x b (dlift dflt g r1) (dlift dflt g r2).
Proof.
  destruct r1 as [[a r]| | |]; cbn; unfold dext; cbn; auto. intros [H ->]. split; [exact H|reflexivity].
Qed.
Lemma rext_bind {A B} x b (r1 r2 : res (A * bytes)) (g : A -> B) :
  rext x b r1 r2 ->
  rext x b (let! (a, r) := r1 in Ok (g a, r)) (let! (a, r) := r2 in Ok (g a, r)).
Proof. destruct r1 as [[a r]| | |]; cbn; auto. intros [H ->]. cbn. auto. Qed.

Lemma rd_varint_ext x b g : rext x b (rd_varint b g) (rd_varint (b ++ x) g).
Proof.
  unfold rd_varint. apply rext_bind. destruct (decode_varint b) as [[v r]| | |] eqn:E; cbn; auto.
  split; [eapply decode_varint_suffix, E|eapply decode_varint_app, E].
Qed.
Lemma rd_le_ext x n b g : rext x b (rd_le n b g) (rd_le n (b ++ x) g).
Proof.
  unfold rd_le. apply rext_bind. destruct (le_decode n b) as [[v r]| | |] eqn:E; cbn; auto.
  split; [eapply le_decode_suffix, E|eapply le_decode_app_ext, E].
Qed.
Lemma read_delimited_ext x b : rext x b (read_delimited b) (read_delimited (b ++ x)).
Proof.
  destruct (read_delimited b) as [[v r]| | |] eqn:E; cbn; auto.
  split; [eapply read_delimited_suffix, E|eapply read_delimited_app_ext, E].
Qed.
Lemma rd_string_ext x b : rext x b (rd_string b) (rd_string (b ++ x)).
Proof.
  unfold rd_string. pose proof (read_delimited_ext x b) as H.
  destruct (read_delimited b) as [[v r]| | |]; cbn in *; auto. destruct H as [H ->]. cbn.
  destruct (utf8_valid v); cbn; auto.
Qed.

Lemma rd_ext x b e w old r1 r2 : rext x b r1 r2 -> dext x b (rd e w old r1) (rd e w old r2).
Proof. unfold rd. destruct (wt_eqb e w); [apply rext_dlift|]. intros _. split; exact I. Qed.

Lemma merge_scalar_ext x k v w b :
  match merge_scalar k v w b, merge_scalar k v w (b ++ x) with
  | Some d1, Some d2 => dext x b d1 d2
  | None, None => True
  | _, _ => False
  end.
Proof.
  destruct v, k; cbn [merge_scalar]; try exact I;
    apply rd_ext; try apply rd_varint_ext; try apply rd_le_ext; try apply rd_string_ext.
  apply rext_bind, read_delimited_ext.
Qed.

Lemma mk_merge_ext x k key w b : dext x b (mk_merge k key w b) (mk_merge k key w (b ++ x)).
Proof.
  unfold mk_merge. pose proof (merge_scalar_ext x k (mk_value key) w b) as H.
  destruct (merge_scalar k (mk_value key) w b) as [d1|]; destruct (merge_scalar k (mk_value key) w (b ++ x)) as [d2|];
    try contradiction; [|split; exact I].
  destruct H as [H1 H2]. destruct d1 as [v r|e v| |]; cbn in H1, H2; try (split; exact I).
  - subst d2. destruct (value_mk v); split; cbn; auto.
  - destruct (value_mk v); split; exact I.
Qed.

Definition skip_step (ctx : nat) : unit -> N -> wt -> bytes -> dres unit :=
  fun (_ : unit) n w' b =>
    match skip_field ctx w' n b with
    | Ok r => DOk tt r
    | Err e => DErr e tt
    | Panic => DPanic
    | Fuel => DFuel
    end.

Lemma skip_field_ext x ctx : forall w n b,
  match skip_field ctx w n b with
  | Ok r => suffix r b /\ skip_field ctx w n (b ++ x) = Ok (r ++ x)
  | _ => True
  end.
Proof.
  induction ctx as [|ctx IH]; intros w n b; [exact I|].
  assert (HS : forall s n w b, dext x b (skip_step ctx s n w b) (skip_step ctx s n w (b ++ x))).
  { intros s n0 w0 b0. unfold skip_step. specialize (IH w0 n0 b0).
    destruct (skip_field ctx w0 n0 b0); cbn; split; auto; cbn.
    - apply IH.
    - destruct IH as [_ ->]. reflexivity. }
  cbn [skip_field]. fold (skip_step ctx). destruct w.
  - destruct (decode_varint b) as [[v r]| | |] eqn:E; cbn [rbind]; try exact I.
    rewrite (decode_varint_app _ _ _ x E). split; [eapply decode_varint_suffix, E|reflexivity].
  - destruct (take_bytes 8 b) as [[v r]| | |] eqn:E; cbn [rbind]; try exact I.
    rewrite (take_bytes_app_ext _ _ _ _ x E). split; [eapply take_bytes_suffix, E|reflexivity].
  - pose proof (read_delimited_ext x b) as H. destruct (read_delimited b) as [[v r]| | |]; cbn [rbind]; try exact I.
    destruct H as [H ->]. split; [exact H|reflexivity].
  - assert (G : dext x b (group_loop (S (length b)) (skip_step ctx) n tt b)
                        (group_loop (S (length (b ++ x))) (skip_step ctx) n tt (b ++ x))).
    { split; [apply group_loop_dsuf; intros; apply HS|].
      apply group_loop_dapp; [intros; apply HS|rewrite app_length; lia]. }
    destruct (group_loop (S (length b)) (skip_step ctx) n tt b); cbn [rbind]; try exact I.
    destruct G as [G1 G2]. cbn [dsuf dapp] in G1, G2. rewrite G2. split; [exact G1|reflexivity].
  - exact I.
  - destruct (take_bytes 4 b) as [[v r]| | |] eqn:E; cbn [rbind]; try exact I.
    rewrite (take_bytes_app_ext _ _ _ _ x E). split; [eapply take_bytes_suffix, E|reflexivity].
Qed.

Lemma uf_decode_value_suffix ctx : forall num w b u r,
  uf_decode_value ctx num w b = Ok (u, r) -> suffix r b.
Proof.
  induction ctx as [|ctx IH]; intros num w b u r H; destruct w; cbn [uf_decode_value] in H; try discriminate H.
  all: try (apply rbind_ok in H; destruct H as ([v r'] & E & H); injection H as _ <-;
    first [eapply decode_varint_suffix, E | eapply le_decode_suffix, E | eapply read_delimited_suffix, E]).
  match type of H with context [group_loop _ ?st _ _ _] => set (step := st) in H end.
  assert (G : dsuf b (group_loop (S (length b)) step num [] b)).
  { apply group_loop_dsuf. intros s n w b0. unfold step.
    destruct (uf_decode_value ctx n w b0) as [[u0 r0]| | |] eqn:E; cbn; auto. eapply IH, E. }
  destruct (group_loop (S (length b)) step num [] b); try discriminate H. injection H as _ <-. exact G.
Qed.

Section Ext.
  Variable t : tables.

  Definition mv_ext (mv : fdl -> value -> wt -> nat -> bytes -> dres value) : Prop :=
    forall x f v w ctx b, dext x b (mv f v w ctx b) (mv f v w ctx (b ++ x)).

  Lemma merge_msg_field_ext mv ctx : mv_ext mv -> forall x m n w b,
    dext x b (merge_msg_field t mv ctx m n w b) (merge_msg_field t mv ctx m n w (b ++ x)).
  Proof.
    intros H x m n w b. unfold merge_msg_field. destruct (find_desc t (dm_desc m) n) as [f|].
    - unfold merge_into.
      destruct (H x f (fs_get t f (fs_get_mut t f (dm_fields m))) w ctx b) as [H1 H2].
      destruct (mv f (fs_get t f (fs_get_mut t f (dm_fields m))) w ctx b); try (split; exact I).
      cbn [dsuf dapp] in H1, H2. rewrite H2. split; [exact H1|reflexivity].
    - destruct (uf_decode_value ctx n w b) as [[u r]| | |] eqn:E; try (split; exact I).
      rewrite (uf_decode_value_dapp x _ _ _ _ _ _ E).
      destruct (fs_add_unknown n u (dm_fields m)); try (split; exact I).
      split; [|reflexivity]. cbn. eapply uf_decode_value_suffix, E.
  Qed.

  Lemma dext_dmap {A B} (g : A -> B) x b d1 d2 : dext x b d1 d2 -> dext x b (dmap g d1) (dmap g d2).
  Proof. intros [H1 H2]. split; [apply dsuf_dmap, H1|apply dapp_dmap, H2]. Qed.

  Lemma merge_loop_ext {S} (step : S -> bytes -> dres S) :
    (forall x s b, dext x b (step s b) (step s (b ++ x))) ->
    forall x s b, dext x b (merge_loop step s b) (merge_loop step s (b ++ x)).
  Proof.
    intros H x s b. split; [apply merge_loop_dsuf; intros; apply (H [])|].
    apply merge_loop_dapp. intros; apply H.
  Qed.
  Lemma keyed_step_ext {S} (step : S -> N -> wt -> bytes -> dres S) :
    (forall x s n w b, dext x b (step s n w b) (step s n w (b ++ x))) ->
    forall x s b, dext x b (keyed_step step s b) (keyed_step step s (b ++ x)).
  Proof.
    intros H x s b. split; [apply keyed_step_dsuf; intros; apply (H [])|].
    apply keyed_step_dapp. intros; apply H.
  Qed.

  Lemma merge_body_ext mv : mv_ext mv -> mv_ext (merge_body t mv).
  Proof.
    intros H x f v w ctx b.
    assert (Scal : match v with VMessage _ | VList _ | VMap _ => True | _ =>
       dext x b (match merge_scalar (fd_kind f) v w b with Some d => d | None => DPanic end)
         (match merge_scalar (fd_kind f) v w (b ++ x) with Some d => d | None => DPanic end) end).
    { pose proof (merge_scalar_ext x (fd_kind f) v w b) as G.
      destruct v; try exact I;
        (destruct (merge_scalar (fd_kind f) _ w b); destruct (merge_scalar (fd_kind f) _ w (b ++ x));
         try contradiction; [exact G|split; exact I]). }
    destruct v; try exact Scal; cbn [merge_body].
    - destruct (kind_msg (fd_kind f)); [|split; exact I]. destruct (fd_is_group f).
      + destruct (negb (wt_eqb WStart w)); [split; exact I|]. destruct ctx as [|ctx]; [split; exact I|].
        apply dext_dmap. split.
        * apply group_loop_dsuf. intros. apply (merge_msg_field_ext mv ctx H []).
        * apply group_loop_dapp; [intros; apply (merge_msg_field_ext mv ctx H)|rewrite app_length; lia].
      + destruct (negb (wt_eqb WLen w)); [split; exact I|]. destruct ctx as [|ctx]; [split; exact I|].
        apply dext_dmap. apply merge_loop_ext. apply keyed_step_ext. apply (merge_msg_field_ext mv ctx H).
    - destruct (fd_is_list f); [|split; exact I]. destruct (wt_eqb w WLen && fd_is_packable f).
      + apply dext_dmap, merge_loop_ext. intros y s b0.
        destruct (H y f (kind_default t (fd_kind f)) (kind_wt (fd_kind f)) ctx b0) as [H1 H2].
        destruct (mv f (kind_default t (fd_kind f)) (kind_wt (fd_kind f)) ctx b0); try (split; exact I).
        cbn [dsuf dapp] in H1, H2. rewrite H2. split; [exact H1|reflexivity].
      + destruct (H x f (kind_default t (fd_kind f)) w ctx b) as [H1 H2].
        destruct (mv f (kind_default t (fd_kind f)) w ctx b); try (split; exact I).
        cbn [dsuf dapp] in H1, H2. rewrite H2. split; [exact H1|reflexivity].
    - destruct (kind_msg (fd_kind f)); [|split; exact I]. destruct (fd_is_map f); [|split; exact I].
      destruct (entry_key t n) as [kf|]; [|split; exact I].
      destruct (entry_value t n) as [vf|]; [|split; exact I].
      destruct (mk_default (fd_kind kf)) as [k0|]; [|split; exact I].
      match goal with |- context [merge_loop (keyed_step ?st) _ _] => set (step := st) end.
      assert (G : forall y s b0, dext y b0 (merge_loop (keyed_step step) s b0) (merge_loop (keyed_step step) s (b0 ++ y))).
      { apply merge_loop_ext, keyed_step_ext. intros y s n0 w0 b0. unfold step.
        destruct (n0 =? MAP_KEY_NUMBER); [apply dext_dmap, mk_merge_ext|].
        destruct (n0 =? MAP_VALUE_NUMBER); [apply dext_dmap, H|].
        pose proof (skip_field_ext y ctx w0 n0 b0) as K. destruct (skip_field ctx w0 n0 b0); try (split; exact I).
        destruct K as [K1 ->]. split; [exact K1|reflexivity]. }
      destruct (G x (k0, fd_default_value t vf) b) as [G1 G2].
      destruct (merge_loop (keyed_step step) (k0, fd_default_value t vf) b) as [[k' v'] r|? ?| |]; try (split; exact I).
      cbn [dsuf dapp] in G1, G2. rewrite G2. split; [exact G1|reflexivity].
  Qed.

  Lemma merge_value_ext n : mv_ext (merge_value n t).
  Proof.
    induction n as [|n IH]; [intros ? ? ? ? ? ?; split; exact I|].
    exact (merge_body_ext _ IH).
  Qed.

  Lemma merge_step_ext n ctx x m num w b :
    dext x b (merge_msg_field t (merge_value n t) ctx m num w b)
             (merge_msg_field t (merge_value n t) ctx m num w (b ++ x)).
  Proof. apply merge_msg_field_ext, merge_value_ext. Qed.

  Lemma merge_step_shrinks n ctx m num w b m' r :
    merge_msg_field t (merge_value n t) ctx m num w b = DOk m' r -> (length r <= length b)%nat.
  Proof.
    intros E. destruct (merge_step_ext n ctx [] m num w b) as [H _]. rewrite E in H.
    apply suffix_length, H.
  Qed.

  (** merging [a] and then [b] is merging [a ++ b], for any bound on the nesting *)
  Lemma merge_fuel_concat n m a b m1 r :
    msg_merge_fuel n t m a = DOk m1 r ->
    msg_merge_fuel n t m (a ++ b) = msg_merge_fuel n t m1 b.
  Proof.
    unfold msg_merge_fuel. intros H. pose proof (stream_loop_rest _ _ _ _ _ _ H) as ->.
    destruct (stream_loop_split (merge_msg_field t (merge_value n t) ctx0) (merge_msg_field t (merge_value n t) ctx0) b
                ltac:(intros; apply merge_step_ext) (merge_step_shrinks n ctx0) _ (length (a ++ b)) _ _ _ H) as (k3 & Hk & E);
      [lia|].
    rewrite E. apply stream_loop_fuel; [apply merge_step_shrinks|exact Hk|lia].
  Qed.
End Ext.
