(** A successful read that leaves [r ++ x] of [b ++ x] does the same on [b]
    alone: records can be cut out of the stream. *)
From Verif Require Import Base BaseProofs Wire WireProofs LoopProofs Unknown UnknownProofs
  Value Descr Fields Codec DescrOk DescrProofs FieldsProofs LenProofs MergeProofs DepthProofs ExtendProofs.

Definition drev {S} (x : bytes) (d1 d2 : dres S) : Prop :=
  match d1 with
  | DOk s y => forall r, y = r ++ x -> d2 = DOk s r
  | _ => True
  end.
Definition rrev {A} (x : bytes) (r1 r2 : res (A * bytes)) : Prop :=
  match r1 with
  | Ok (a, y) => forall r, y = r ++ x -> r2 = Ok (a, r)
  | _ => True
  end.

Lemma suffix_cut (r x y b : bytes) : suffix (r ++ x) y -> exists r1, y = r1 ++ x /\ suffix r r1.
Proof. intros (pre & ->). exists (pre ++ r). rewrite app_assoc. split; [reflexivity|]. now exists pre. Qed.

Lemma suffix_strict r b : suffix r b -> length r = length b -> r = b.
Proof.
  intros (pre & ->). rewrite app_length. intros H. destruct pre; [reflexivity|cbn in H; lia].
Qed.

Lemma decode_varint_rev x b : rrev x (decode_varint (b ++ x)) (decode_varint b).
Proof.
  unfold decode_varint. generalize 10%nat as n. intros n. revert b.
  induction n as [|n IH]; intros b; [exact I|].
  destruct b as [|c b].
  - cbn [app]. destruct x as [|c x]; [exact I|]. unfold rrev.
    destruct (decode_varint_loop (S n) (c :: x)) as [[v y]| | |] eqn:E; try exact I.
    intros r ->. apply decode_varint_loop_split in E. destruct E as (pre & E & HL).
    apply (f_equal (@length N)) in E. rewrite !app_length in E. cbn in E. lia.
  - cbn [app decode_varint_loop]. destruct (c <? 128).
    + destruct n.
      * destruct (c <? 2); [|exact I]. intros r E. apply app_inv_tail in E. subst. reflexivity.
      * intros r E. apply app_inv_tail in E. subst. reflexivity.
    + specialize (IH b). destruct (decode_varint_loop n (b ++ x)) as [[v y]| | |]; cbn; try exact I.
      intros r Hr. rewrite (IH r Hr). reflexivity.
Qed.

Lemma decode_key_rev x b :
  match decode_key (b ++ x) with
  | Ok (n, w, y) => forall r, y = r ++ x -> decode_key b = Ok (n, w, r)
  | _ => True
  end.
Proof.
  unfold decode_key. pose proof (decode_varint_rev x b) as H.
  destruct (decode_varint (b ++ x)) as [[v y]| | |]; cbn [rbind]; try exact I.
  destruct (two32 <=? v) eqn:E1; [exact I|]. destruct (wt_of (v mod 8)) eqn:E2; [|exact I].
  destruct (v / 8 <? 1) eqn:E3; [exact I|]. intros r Hr. rewrite (H r Hr). cbn [rbind].
  rewrite E1, E2, E3. reflexivity.
Qed.

Lemma take_bytes_rev x n b : rrev x (take_bytes n (b ++ x)) (take_bytes n b).
Proof.
  destruct (take_bytes n (b ++ x)) as [[s y]| | |] eqn:E; try exact I. intros r ->.
  apply take_bytes_inv in E. destruct E as [E HL]. rewrite app_assoc in E. apply app_inv_tail in E.
  subst b. now apply take_bytes_app.
Qed.
Lemma le_decode_rev x n b : rrev x (le_decode n (b ++ x)) (le_decode n b).
Proof.
  unfold le_decode. pose proof (take_bytes_rev x n b) as H.
  destruct (take_bytes n (b ++ x)) as [[s y]| | |]; cbn [rbind]; try exact I.
  intros r Hr. rewrite (H r Hr). reflexivity.
Qed.
Lemma read_delimited_rev x b : rrev x (read_delimited (b ++ x)) (read_delimited b).
Proof.
  unfold read_delimited. pose proof (decode_varint_rev x b) as H.
  destruct (decode_varint (b ++ x)) as [[len y]| | |]; cbn [rbind]; try exact I.
  destruct (take_bytes len y) as [[s z]| | |] eqn:E; try exact I. intros r ->.
  pose proof (take_bytes_suffix _ _ _ _ E) as Hs. destruct (suffix_cut _ _ _ [] Hs) as (r1 & -> & _).
  rewrite (H r1 eq_refl). cbn [rbind]. pose proof (take_bytes_rev x len r1) as K. rewrite E in K.
  apply K. reflexivity.
Qed.

Lemma rrev_bind {A B} x (r1 r2 : res (A * bytes)) (g : A -> B) :
  rrev x r1 r2 ->
  rrev x (let! (a, r) := r1 in Ok (g a, r)) (let! (a, r) := r2 in Ok (g a, r)).
Proof. destruct r1 as [[a y]| | |]; cbn; auto. intros H r Hr. rewrite (H r Hr). reflexivity. Qed.
Lemma rrev_dlift {A S} x (dflt : S) (g : A -> S) r1 r2 :
  rrev x r1 r2 -> drev x (dlift dflt g r1) (dlift dflt g r2).
Proof. destruct r1 as [[a y]| | |]; cbn; auto. intros H r Hr. rewrite (H r Hr). reflexivity. Qed.
Lemma rd_rev x e w old r1 r2 : rrev x r1 r2 -> drev x (rd e w old r1) (rd e w old r2).
Proof. unfold rd. destruct (wt_eqb e w); [apply rrev_dlift|]. intros _. exact I. Qed.
Lemma rd_string_rev x b : rrev x (rd_string (b ++ x)) (rd_string b).
Proof.
  unfold rd_string. pose proof (read_delimited_rev x b) as H.
  destruct (read_delimited (b ++ x)) as [[v y]| | |]; cbn [rbind]; try exact I.
  destruct (utf8_valid v) eqn:E; [|exact I]. intros r Hr. rewrite (H r Hr). cbn [rbind]. rewrite E. reflexivity.
Qed.

Lemma merge_scalar_rev x k v w b :
  match merge_scalar k v w (b ++ x), merge_scalar k v w b with
  | Some d1, Some d2 => drev x d1 d2
  | None, None => True
  | _, _ => False
  end.
Proof.
  destruct v, k; cbn [merge_scalar]; try exact I;
    apply rd_rev; try apply rrev_bind; try apply decode_varint_rev; try apply le_decode_rev;
    try apply rd_string_rev; apply read_delimited_rev.
Qed.
Lemma mk_merge_rev x k key w b : drev x (mk_merge k key w (b ++ x)) (mk_merge k key w b).
Proof.
  unfold mk_merge. pose proof (merge_scalar_rev x k (mk_value key) w b) as H.
  destruct (merge_scalar k (mk_value key) w (b ++ x)) as [d1|];
    destruct (merge_scalar k (mk_value key) w b) as [d2|]; try contradiction; [|exact I].
  destruct d1 as [v y|e v| |]; try exact I.
  - destruct (value_mk v) eqn:E; [|exact I]. intros r Hr. cbn in H. rewrite (H r Hr), E. reflexivity.
  - destruct (value_mk v); exact I.
Qed.

(** *** Loops *)

Lemma group_loop_rev {S} (step : S -> N -> wt -> bytes -> dres S) x tag :
  (forall s n w b, drev x (step s n w (b ++ x)) (step s n w b)) ->
  (forall s n w b, dsuf b (step s n w b)) ->
  forall k1 k2 s b, (length b < k2)%nat ->
    drev x (group_loop k1 step tag s (b ++ x)) (group_loop k2 step tag s b).
Proof.
  intros Hr Hs. induction k1 as [|k1 IH]; intros k2 s b Hk; [exact I|].
  destruct k2 as [|k2]; [lia|]. cbn [group_loop].
  pose proof (decode_key_rev x b) as HK. pose proof (decode_key_suffix (b ++ x)) as HKs.
  destruct (decode_key (b ++ x)) as [[[n w] y]| | |] eqn:Ek; try exact I.
  specialize (HKs _ _ _ eq_refl).
  destruct (wt_eqb w WEnd) eqn:Ew.
  - destruct (n =? tag) eqn:En; [|exact I]. intros r ->. rewrite (HK r eq_refl), Ew, En. reflexivity.
  - pose proof (Hs s n w y) as Hsy. destruct (step s n w y) as [s1 z| | |] eqn:Es; try exact I.
    cbn in Hsy. unfold drev. pose proof (group_loop_dsuf step tag Hs k1 s1 z) as Hz.
    destruct (group_loop k1 step tag s1 z) as [s2 q| | |] eqn:Eg; try exact I.
    intros r ->. cbn in Hz. destruct (suffix_cut _ _ _ [] Hz) as (z' & -> & _).
    destruct (suffix_cut _ _ _ [] Hsy) as (y' & -> & _).
    pose proof (HK y' eq_refl) as Hb. rewrite Hb, Ew.
    pose proof (Hr s n w y') as Hst. rewrite Es in Hst. rewrite (Hst z' eq_refl).
    assert (Hlen : (length z' < length b)%nat).
    { apply decode_key_len in Hb. apply suffix_length in Hsy. rewrite !app_length in Hsy. lia. }
    pose proof (IH k2 s1 z' ltac:(lia)) as G. rewrite Eg in G. apply (G r eq_refl).
Qed.

Lemma keyed_step_rev {S} (step : S -> N -> wt -> bytes -> dres S) x :
  (forall s n w b, drev x (step s n w (b ++ x)) (step s n w b)) ->
  (forall s n w b, dsuf b (step s n w b)) ->
  forall s b, drev x (keyed_step step s (b ++ x)) (keyed_step step s b).
Proof.
  intros Hr Hs s b. unfold keyed_step. pose proof (decode_key_rev x b) as HK.
  destruct (decode_key (b ++ x)) as [[[n w] y]| | |]; try exact I.
  pose proof (Hs s n w y) as Hsy. destruct (step s n w y) as [s1 z| | |] eqn:Es; try exact I.
  intros r ->. cbn in Hsy. destruct (suffix_cut _ _ _ [] Hsy) as (y' & -> & _).
  rewrite (HK y' eq_refl). pose proof (Hr s n w y') as H. rewrite Es in H. apply H. reflexivity.
Qed.
Lemma keyed_step_strict {S} (step : S -> N -> wt -> bytes -> dres S) :
  (forall s n w b, dsuf b (step s n w b)) ->
  forall s b s' r, keyed_step step s b = DOk s' r -> (length r < length b)%nat.
Proof.
  intros Hs s b s' r. unfold keyed_step.
  destruct (decode_key b) as [[[n w] y]| | |] eqn:E; try discriminate. intros H.
  pose proof (Hs s n w y) as K. rewrite H in K. cbn in K. apply suffix_length in K.
  apply decode_key_len in E. lia.
Qed.

Lemma loop_until_rev {S} (step : S -> bytes -> dres S) x :
  (forall s b, drev x (step s (b ++ x)) (step s b)) ->
  (forall s b, dsuf b (step s b)) ->
  (forall s b s' r, step s b = DOk s' r -> (length r < length b)%nat) ->
  forall k1 k2 limit s b, (length b <= k2)%nat -> (length x <= limit)%nat ->
    drev x (loop_until k1 step limit s (b ++ x)) (loop_until k2 step (limit - length x) s b).
Proof.
  intros Hr Hs Hlt. induction k1 as [|k1 IH]; intros k2 limit s b Hk Hl.
  - cbn [loop_until]. destruct (length (b ++ x) <=? limit)%nat eqn:E; [|exact I].
    destruct (length (b ++ x) =? limit)%nat eqn:E1; [|exact I]. intros r Er. apply app_inv_tail in Er. subst r.
    rewrite app_length in *. replace (limit - length x)%nat with (length b) by lia.
    destruct k2; cbn [loop_until]; rewrite Nat.leb_refl, Nat.eqb_refl; reflexivity.
  - cbn [loop_until]. destruct (length (b ++ x) <=? limit)%nat eqn:E.
    + destruct (length (b ++ x) =? limit)%nat eqn:E1; [|exact I]. intros r Er. apply app_inv_tail in Er. subst r.
      rewrite app_length in *. replace (limit - length x)%nat with (length b) by lia.
      destruct k2; cbn [loop_until]; rewrite Nat.leb_refl, Nat.eqb_refl; reflexivity.
    + pose proof (Hs s (b ++ x)) as Hsy. destruct (step s (b ++ x)) as [s1 y| | |] eqn:Es; try exact I.
      unfold drev. pose proof (loop_until_dsuf step limit Hs k1 s1 y) as Hy.
      destruct (loop_until k1 step limit s1 y) as [s2 z| | |] eqn:El; try exact I.
      intros r ->. cbn in Hy, Hsy. destruct (suffix_cut _ _ _ [] Hy) as (y' & -> & _).
      rewrite app_length in E. pose proof (Hr s b) as Hst. rewrite Es in Hst. specialize (Hst y' eq_refl).
      pose proof (Hlt _ _ _ _ Hst) as HL. destruct k2 as [|k2]; [lia|]. cbn [loop_until].
      destruct (length b <=? limit - length x)%nat eqn:E2; [lia|]. rewrite Hst.
      pose proof (IH k2 limit s1 y' ltac:(lia) Hl) as G. rewrite El in G. apply (G r eq_refl).
Qed.

Lemma merge_loop_rev {S} (step : S -> bytes -> dres S) x :
  (forall s b, drev x (step s (b ++ x)) (step s b)) ->
  (forall s b, dsuf b (step s b)) ->
  (forall s b s' r, step s b = DOk s' r -> (length r < length b)%nat) ->
  forall s b, drev x (merge_loop step s (b ++ x)) (merge_loop step s b).
Proof.
  intros Hr Hs Hlt s b. unfold merge_loop. pose proof (decode_varint_rev x b) as HV.
  destruct (decode_varint (b ++ x)) as [[len y]| | |]; try exact I.
  destruct (N.of_nat (length y) <? len) eqn:E; [exact I|].
  pose proof (loop_until_dsuf step (length y - N.to_nat len) Hs (Datatypes.S (length y)) s y) as Hy.
  unfold drev. destruct (loop_until (Datatypes.S (length y)) step (length y - N.to_nat len) s y) as [s1 z| | |] eqn:El; try exact I.
  intros r ->. cbn in Hy. destruct (suffix_cut _ _ _ [] Hy) as (y' & -> & _). rewrite (HV y' eq_refl).
  assert (Hz : length (r ++ x) = (length (y' ++ x) - N.to_nat len)%nat).
  { assert (G : forall k limit s b s' q, loop_until k step limit s b = DOk s' q -> length q = limit).
    { clear. induction k as [|k IH]; intros limit s b s' q; cbn [loop_until].
      - destruct (length b <=? limit)%nat; [|discriminate].
        destruct (length b =? limit)%nat eqn:E; [|discriminate]. injection 1 as _ <-. lia.
      - destruct (length b <=? limit)%nat.
        + destruct (length b =? limit)%nat eqn:E; [|discriminate]. injection 1 as _ <-. lia.
        + destruct (step s b); try discriminate. apply IH. }
    eapply G, El. }
  rewrite !app_length in *.
  destruct (N.of_nat (length y') <? len) eqn:E2; [lia|].
  pose proof (loop_until_rev step x Hr Hs Hlt (Datatypes.S (length y' + length x)) (Datatypes.S (length y'))
     (length y' + length x - N.to_nat len) s y' ltac:(lia) ltac:(lia)) as G.
  rewrite El in G. specialize (G r eq_refl).
  replace (length y' + length x - N.to_nat len - length x)%nat with (length y' - N.to_nat len)%nat in G by lia.
  exact G.
Qed.

Lemma skip_step_suf ctx s n w b : dsuf b (skip_step ctx s n w b).
Proof.
  unfold skip_step. pose proof (skip_field_ext [] ctx w n b) as H. destruct (skip_field ctx w n b); cbn; auto.
  apply H.
Qed.
Lemma skip_field_rev x ctx : forall w n b,
  match skip_field ctx w n (b ++ x) with
  | Ok y => forall r, y = r ++ x -> skip_field ctx w n b = Ok r
  | _ => True
  end.
Proof.
  induction ctx as [|ctx IH]; intros w n b; [exact I|].
  assert (HS : forall s n w b, drev x (skip_step ctx s n w (b ++ x)) (skip_step ctx s n w b)).
  { intros s n0 w0 b0. unfold skip_step. specialize (IH w0 n0 b0).
    destruct (skip_field ctx w0 n0 (b0 ++ x)); try exact I. intros r Hr. rewrite (IH r Hr). reflexivity. }
  cbn [skip_field]. fold (skip_step ctx). destruct w.
  - pose proof (decode_varint_rev x b) as H. destruct (decode_varint (b ++ x)) as [[v y]| | |]; cbn [rbind]; try exact I.
    intros r Hr. rewrite (H r Hr). reflexivity.
  - pose proof (take_bytes_rev x 8 b) as H. destruct (take_bytes 8 (b ++ x)) as [[v y]| | |]; cbn [rbind]; try exact I.
    intros r Hr. rewrite (H r Hr). reflexivity.
  - pose proof (read_delimited_rev x b) as H. destruct (read_delimited (b ++ x)) as [[v y]| | |]; cbn [rbind]; try exact I.
    intros r Hr. rewrite (H r Hr). reflexivity.
  - pose proof (group_loop_rev (skip_step ctx) x n HS (skip_step_suf ctx) (S (length (b ++ x))) (S (length b)) tt b ltac:(lia)) as G.
    destruct (group_loop (S (length (b ++ x))) (skip_step ctx) n tt (b ++ x)); try exact I.
    intros r0 Hr. rewrite (G r0 Hr). reflexivity.
  - exact I.
  - pose proof (take_bytes_rev x 4 b) as H. destruct (take_bytes 4 (b ++ x)) as [[v y]| | |]; cbn [rbind]; try exact I.
    intros r Hr. rewrite (H r Hr). reflexivity.
Qed.

Definition uf_step (ctx : nat) : list ufield -> N -> wt -> bytes -> dres (list ufield) :=
  fun us n w' b =>
    match uf_decode_value ctx n w' b with
    | Ok (u, r) => DOk (us ++ [u]) r
    | Err e => DErr e us
    | Panic => DPanic
    | Fuel => DFuel
    end.
Lemma uf_step_suf ctx s n w b : dsuf b (uf_step ctx s n w b).
Proof.
  unfold uf_step. destruct (uf_decode_value ctx n w b) as [[u r]| | |] eqn:E; cbn; auto.
  eapply uf_decode_value_suffix, E.
Qed.
Lemma uf_decode_value_rev x ctx : forall num w b,
  rrev x (uf_decode_value ctx num w (b ++ x)) (uf_decode_value ctx num w b).
Proof.
  induction ctx as [|ctx IH]; intros num w b; destruct w; cbn [uf_decode_value];
    try exact I; try (apply rrev_bind; first [apply decode_varint_rev|apply read_delimited_rev]);
    try (pose proof (le_decode_rev x 8 b) as H; destruct (le_decode 8 (b ++ x)) as [[v y]| | |]; cbn [rbind];
         try exact I; intros r Hr; rewrite (H r Hr); reflexivity);
    try (pose proof (le_decode_rev x 4 b) as H; destruct (le_decode 4 (b ++ x)) as [[v y]| | |]; cbn [rbind];
         try exact I; intros r Hr; rewrite (H r Hr); reflexivity).
  fold (uf_step ctx).
  assert (HS : forall s n w b, drev x (uf_step ctx s n w (b ++ x)) (uf_step ctx s n w b)).
  { intros s n w0 b0. unfold uf_step. specialize (IH n w0 b0).
    destruct (uf_decode_value ctx n w0 (b0 ++ x)) as [[u y]| | |]; try exact I.
    intros r Hr. rewrite (IH r Hr). reflexivity. }
  pose proof (group_loop_rev (uf_step ctx) x num HS (uf_step_suf ctx) (S (length (b ++ x))) (S (length b)) [] b ltac:(lia)) as G.
  destruct (group_loop (S (length (b ++ x))) (uf_step ctx) num [] (b ++ x)); try exact I.
  intros r0 Hr. rewrite (G r0 Hr). reflexivity.
Qed.

Lemma rd_varint_strict b g v r : rd_varint b g = Ok (v, r) -> (length r < length b)%nat.
Proof.
  unfold rd_varint. intros H. apply rbind_ok in H. destruct H as ([x y] & E & H). injection H as _ <-.
  eapply decode_varint_len, E.
Qed.
Lemma rd_le_strict n b g v r : 1 <= n -> rd_le n b g = Ok (v, r) -> (length r < length b)%nat.
Proof.
  unfold rd_le, le_decode. intros Hn H. apply rbind_ok in H. destruct H as ([x y] & E & H). injection H as _ <-.
  apply rbind_ok in E. destruct E as ([s z] & E & H). injection H as _ <-.
  apply take_bytes_inv in E. destruct E as [-> HL]. rewrite app_length. lia.
Qed.
Lemma merge_scalar_strict k v w b v' r :
  is_packable k = true -> merge_scalar k v w b = Some (DOk v' r) -> (length r < length b)%nat.
Proof.
  assert (G : forall e old (q : res (value * bytes)), rd e w old q = DOk v' r -> q = Ok (v', r)).
  { intros e old q. unfold rd. destruct (wt_eqb e w); [|discriminate]. destruct q as [[a y]| | |]; cbn; try discriminate.
    injection 1 as -> ->. reflexivity. }
  intros Hp H. destruct v, k; try discriminate Hp; try discriminate H; cbn [merge_scalar] in H;
    apply (f_equal (fun o => match o with Some d => d | None => DPanic end)) in H; cbv beta iota in H;
    apply G in H; first [eapply rd_varint_strict, H | eapply rd_le_strict, H; lia].
Qed.

Section Rev.
  Variable t : tables.

  Definition mv_rev (mv : fdl -> value -> wt -> nat -> bytes -> dres value) : Prop :=
    (forall x f v w ctx b, drev x (mv f v w ctx (b ++ x)) (mv f v w ctx b)) /\
    (forall f w ctx b v r, fd_is_packable f = true ->
       mv f (kind_default t (fd_kind f)) w ctx b = DOk v r -> (length r < length b)%nat).

  Lemma drev_dmap {A B} (g : A -> B) x d1 d2 : drev x d1 d2 -> drev x (dmap g d1) (dmap g d2).
  Proof. destruct d1; cbn; auto. intros H r Hr. rewrite (H r Hr). reflexivity. Qed.

  Lemma merge_msg_field_rev mv ctx : mv_rev mv -> forall x m n w b,
    drev x (merge_msg_field t mv ctx m n w (b ++ x)) (merge_msg_field t mv ctx m n w b).
  Proof.
    intros [H _] x m n w b. unfold merge_msg_field. destruct (find_desc t (dm_desc m) n) as [f|].
    - unfold merge_into. specialize (H x f (fs_get t f (fs_get_mut t f (dm_fields m))) w ctx b).
      destruct (mv f (fs_get t f (fs_get_mut t f (dm_fields m))) w ctx (b ++ x)); try exact I.
      intros r0 Hr. rewrite (H r0 Hr). reflexivity.
    - pose proof (uf_decode_value_rev x ctx n w b) as K.
      destruct (uf_decode_value ctx n w (b ++ x)) as [[u y]| | |]; try exact I.
      destruct (fs_add_unknown n u (dm_fields m)) eqn:E; try exact I.
      intros r Hr. rewrite (K r Hr), E. reflexivity.
  Qed.

  Lemma merge_body_rev mv : mv_ext mv -> mv_rev mv ->
    forall x f v w ctx b, drev x (merge_body t mv f v w ctx (b ++ x)) (merge_body t mv f v w ctx b).
  Proof.
    intros HE H x f v w ctx b.
    assert (Hsuf : forall ctx s n w b, dsuf b (merge_msg_field t mv ctx s n w b)).
    { intros. apply (merge_msg_field_ext t mv ctx0 HE []). }
    assert (Scal : match v with VMessage _ | VList _ | VMap _ => True | _ =>
       drev x (match merge_scalar (fd_kind f) v w (b ++ x) with Some d => d | None => DPanic end)
         (match merge_scalar (fd_kind f) v w b with Some d => d | None => DPanic end) end).
    { pose proof (merge_scalar_rev x (fd_kind f) v w b) as G.
      destruct v; try exact I;
        (destruct (merge_scalar (fd_kind f) _ w (b ++ x)); destruct (merge_scalar (fd_kind f) _ w b);
         try contradiction; [exact G|exact I]). }
    destruct v; try exact Scal; cbn [merge_body].
    - destruct (kind_msg (fd_kind f)); [|exact I]. destruct (fd_is_group f).
      + destruct (negb (wt_eqb WStart w)); [exact I|]. destruct ctx as [|ctx]; [exact I|].
        apply drev_dmap, group_loop_rev; [intros; apply merge_msg_field_rev, H|apply Hsuf|lia].
      + destruct (negb (wt_eqb WLen w)); [exact I|]. destruct ctx as [|ctx]; [exact I|].
        apply drev_dmap, merge_loop_rev.
        * apply keyed_step_rev; [intros; apply merge_msg_field_rev, H|apply Hsuf].
        * intros s b0. apply keyed_step_dsuf, Hsuf.
        * apply keyed_step_strict, Hsuf.
    - destruct (fd_is_list f); [|exact I]. destruct (wt_eqb w WLen && fd_is_packable f) eqn:Ep.
      + apply andb_true_iff in Ep. destruct Ep as [_ Ep].
        apply drev_dmap, merge_loop_rev.
        * intros s b0. pose proof (proj1 H x f (kind_default t (fd_kind f)) (kind_wt (fd_kind f)) ctx b0) as K.
          destruct (mv f (kind_default t (fd_kind f)) (kind_wt (fd_kind f)) ctx (b0 ++ x)); try exact I.
          intros r0 Hr. rewrite (K r0 Hr). reflexivity.
        * intros s b0. destruct (HE [] f (kind_default t (fd_kind f)) (kind_wt (fd_kind f)) ctx b0) as [K _].
          destruct (mv f (kind_default t (fd_kind f)) (kind_wt (fd_kind f)) ctx b0); cbn in *; auto.
        * intros s b0 s' r. pose proof (proj2 H f (kind_wt (fd_kind f)) ctx b0) as K.
          destruct (mv f (kind_default t (fd_kind f)) (kind_wt (fd_kind f)) ctx b0); try discriminate.
          injection 1 as _ <-. eapply K; [exact Ep|reflexivity].
      + pose proof (proj1 H x f (kind_default t (fd_kind f)) w ctx b) as K.
        destruct (mv f (kind_default t (fd_kind f)) w ctx (b ++ x)); try exact I.
        intros r0 Hr. rewrite (K r0 Hr). reflexivity.
    - destruct (kind_msg (fd_kind f)); [|exact I]. destruct (fd_is_map f); [|exact I].
      destruct (entry_key t n) as [kf|]; [|exact I].
      destruct (entry_value t n) as [vf|]; [|exact I].
      destruct (mk_default (fd_kind kf)) as [k0|]; [|exact I].
      match goal with |- context [merge_loop (keyed_step ?st) _ _] => set (step := st) end.
      assert (SS : forall s n w b, dsuf b (step s n w b)).
      { intros s n0 w0 b0. unfold step.
        destruct (n0 =? MAP_KEY_NUMBER); [apply dsuf_dmap; apply (mk_merge_ext [])|].
        destruct (n0 =? MAP_VALUE_NUMBER); [apply dsuf_dmap; apply (HE [])|].
        pose proof (skip_field_ext [] ctx w0 n0 b0) as K. destruct (skip_field ctx w0 n0 b0); cbn; auto. apply K. }
      assert (G : drev x (merge_loop (keyed_step step) (k0, fd_default_value t vf) (b ++ x))
                       (merge_loop (keyed_step step) (k0, fd_default_value t vf) b)).
      { apply merge_loop_rev; [apply keyed_step_rev; [|exact SS]|intros; apply keyed_step_dsuf, SS|apply keyed_step_strict, SS].
        intros s n0 w0 b0. unfold step.
        destruct (n0 =? MAP_KEY_NUMBER); [apply drev_dmap, mk_merge_rev|].
        destruct (n0 =? MAP_VALUE_NUMBER); [apply drev_dmap, (proj1 H)|].
        pose proof (skip_field_rev x ctx w0 n0 b0) as K. destruct (skip_field ctx w0 n0 (b0 ++ x)); try exact I.
        intros r Hr. rewrite (K r Hr). reflexivity. }
      destruct (merge_loop (keyed_step step) (k0, fd_default_value t vf) (b ++ x)) as [[k' v'] y|? ?| |]; try exact I.
      intros r Hr. rewrite (G r Hr). reflexivity.
  Qed.

  Lemma merge_value_rev n : mv_rev (merge_value n t).
  Proof.
    induction n as [|n IH]; [split; [intros; exact I|discriminate]|].
    split; [exact (merge_body_rev _ (merge_value_ext t n) IH)|].
    intros f w ctx b v r Hp H. cbn [merge_value] in H.
    assert (Hk : match kind_default t (fd_kind f) with VMessage _ | VList _ | VMap _ => False | _ => True end).
    { unfold fd_is_packable in Hp. destruct (fd_kind f); try discriminate Hp; exact I. }
    unfold merge_body in H.
    destruct (kind_default t (fd_kind f)) eqn:Ed; try contradiction;
      match type of H with context [merge_scalar ?k ?v ?w ?b] => destruct (merge_scalar k v w b) as [d|] eqn:Em end;
      try discriminate H; subst d; eapply merge_scalar_strict; eauto.
  Qed.

  Lemma merge_step_rev n ctx x m num w b :
    drev x (merge_msg_field t (merge_value n t) ctx m num w (b ++ x))
           (merge_msg_field t (merge_value n t) ctx m num w b).
  Proof. apply merge_msg_field_rev, merge_value_rev. Qed.
End Rev.
