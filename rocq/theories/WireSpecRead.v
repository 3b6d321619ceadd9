(** Decoding against the grammar: what is read is what the grammar says, and
    everything the grammar allows is read. *)
From Verif Require Import Base BaseProofs Wire WireProofs LoopProofs Unknown UnknownProofs Value Descr Fields Codec
  DescrOk DescrProofs FieldsProofs LenProofs MergeProofs DepthProofs ExtendProofs RestrictProofs RecordProofs MergeRules
  WireSpec WireSpecScalars.

(** ** Records of unknown content *)
Lemma uf_step_ext ctx x us n w b : dext x b (uf_step ctx us n w b) (uf_step ctx us n w (b ++ x)).
Proof.
  unfold uf_step. destruct (uf_decode_value ctx n w b) as [[u r]| | |] eqn:E; try (split; exact I).
  split; [exact (uf_decode_value_suffix _ _ _ _ _ _ E)|]. cbn [dapp]. now rewrite (uf_decode_value_dapp x _ _ _ _ _ _ E).
Qed.
Lemma uf_step_rev ctx x us n w b : drev x (uf_step ctx us n w (b ++ x)) (uf_step ctx us n w b).
Proof.
  unfold uf_step. pose proof (uf_decode_value_rev x ctx n w b) as H.
  destruct (uf_decode_value ctx n w (b ++ x)) as [[u r]| | |]; try exact I. intros r' ->. now rewrite (H r' eq_refl).
Qed.
Lemma skip_step_ext ctx x s n w b : dext x b (skip_step ctx s n w b) (skip_step ctx s n w (b ++ x)).
Proof.
  unfold skip_step. pose proof (skip_field_ext x ctx w n b) as H.
  destruct (skip_field ctx w n b) as [r| | |]; try (split; exact I). destruct H as [H1 H2]. rewrite H2. split; [exact H1|reflexivity].
Qed.
Lemma skip_step_rev ctx x s n w b : drev x (skip_step ctx s n w (b ++ x)) (skip_step ctx s n w b).
Proof.
  unfold skip_step. pose proof (skip_field_rev x ctx w n b) as H.
  destruct (skip_field ctx w n (b ++ x)) as [r| | |]; try exact I. intros r' ->. now rewrite (H r' eq_refl).
Qed.

(** a chunk is a key and a payload *)
Lemma chunk_key c n w p : bytes_ok c -> decode_key c = Ok (n, w, p) -> exists kb, c = kb ++ p /\ record_key n w kb /\ bytes_ok p.
Proof.
  intros Hb H. destruct (read_key _ _ _ _ Hb H) as (kb & -> & K). exists kb. split; [reflexivity|]. split; [exact K|].
  apply bytes_ok_app in Hb. tauto.
Qed.
Lemma key_chunk n w kb p : record_key n w kb -> decode_key (kb ++ p) = Ok (n, w, p).
Proof. apply key_read. Qed.

Lemma Ok_pair_inj {A B} (a a' : A) (c c' : B) : Ok (a, c) = Ok (a', c') -> a = a' /\ c = c'.
Proof. intros H. split; congruence. Qed.
Lemma fixed_bytes w v bs : fixed w v bs -> le_encode w v = bs /\ length bs = w.
Proof.
  intros [V L]. apply little_value in V. destruct V as [V ->]. split; [|exact L]. rewrite <- L. now apply le_encode_value.
Qed.
Lemma raw_sound ctx : forall num w buf u r, tag_ok num -> bytes_ok buf -> uf_decode_value ctx num w buf = Ok (u, r) ->
  uf_number u = num /\ uf_wire_type u = w /\ exists pl, buf = pl ++ r /\ raw ctx u pl.
Proof.
  induction ctx as [|ctx IH]; intros num w buf u r Ht Hb H.
  all: destruct w; cbn [uf_decode_value] in H; try discriminate;
    try (apply rbind_ok in H; destruct H as ([v r1] & H & E); apply Ok_pair_inj in E; destruct E as [<- <-]; (split; [reflexivity|]); (split; [reflexivity|]);
         first [ destruct (read_varint _ _ _ Hb H) as (pl & -> & V); exists pl; (split; [reflexivity|]); now constructor
               | destruct (read_delim _ _ _ Hb H) as (pl & -> & V); exists pl; (split; [reflexivity|]); now constructor
               | destruct (read_fixed 8 _ _ _ Hb H) as (pl & -> & V); exists pl; (split; [reflexivity|]); destruct (fixed_bytes _ _ _ V) as [-> L]; now constructor
               | destruct (read_fixed 4 _ _ _ Hb H) as (pl & -> & V); exists pl; (split; [reflexivity|]); destruct (fixed_bytes _ _ _ V) as [-> L]; now constructor ]).
  fold (uf_step ctx) in H.
  destruct (group_loop (S (length buf)) (uf_step ctx) num [] buf) as [us r1| | |] eqn:E; try discriminate. injection H as <- <-.
  split; [reflexivity|]. split; [reflexivity|].
  destruct (group_runs (uf_step ctx) (uf_step_ext ctx) (uf_step_rev ctx) _ _ _ _ _ _ E) as (cs & e & -> & R & He & _).
  apply bytes_ok_app in Hb. destruct Hb as [Hb Hb2]. apply bytes_ok_app in Hb2. destruct Hb2 as [Hb2 _].
  destruct (chunk_key _ _ _ _ Hb2 He) as (e' & -> & K & _). rewrite app_nil_r.
  exists (concat cs ++ e'). split; [now rewrite app_assoc|]. constructor; [|exact K].
  assert (G : forall acc cs us, runs (uf_step ctx) acc cs us -> bytes_ok (concat cs) -> exists vs, us = acc ++ vs /\ raws ctx vs (concat cs)).
  { clear -IH. induction 1 as [acc|acc c n w p acc1 cs us Hk Hs Hr IHr]; intros Hb.
    - exists []. split; [now rewrite app_nil_r|constructor].
    - cbn [concat] in *. apply bytes_ok_app in Hb. destruct Hb as [Hb1 Hb2].
      destruct (IHr Hb2) as (vs & -> & Hvs). unfold uf_step in Hs.
      destruct (uf_decode_value ctx n w p) as [[u r]| | |] eqn:Eu; try discriminate. injection Hs as <- ->.
      destruct (chunk_key _ _ _ _ Hb1 Hk) as (kb & -> & K & Hp).
      destruct (IH _ _ _ _ _ (proj1 K) Hp Eu) as (<- & <- & pl & -> & Hpl). rewrite app_nil_r.
      exists (u :: vs). split; [now rewrite <- app_assoc|]. rewrite <- app_assoc. now constructor. }
  destruct (G _ _ _ R Hb) as (vs & -> & Hvs). exact Hvs.
Qed.


Lemma raw_complete :
  (forall n u pl, raw n u pl -> bytes_ok pl -> forall r, uf_decode_value n (uf_number u) (uf_wire_type u) (pl ++ r) = Ok (u, r)) /\
  (forall n us body, raws n us body -> bytes_ok body ->
     exists cs, body = concat cs /\ (forall acc, runs (uf_step n) acc cs (acc ++ us)) /\ Forall (key_is (fun _ w => w <> WEnd)) cs).
Proof.
  apply (raw_both (fun n u pl _ => bytes_ok pl -> forall r, uf_decode_value n (uf_number u) (uf_wire_type u) (pl ++ r) = Ok (u, r))
    (fun n us body _ => bytes_ok body ->
     exists cs, body = concat cs /\ (forall acc, runs (uf_step n) acc cs (acc ++ us)) /\ Forall (key_is (fun _ w => w <> WEnd)) cs)).
  - intros n num v bs V Hb r. destruct n; cbn [uf_decode_value uf_number uf_wire_type]; now rewrite (varint_read _ _ _ V).
  - intros n num bs L Hb r.
    assert (F : fixed 8 (le_value bs) bs) by (split; [now apply little_value|exact L]).
    destruct n; cbn [uf_decode_value uf_number uf_wire_type]; rewrite (fixed8_read _ _ _ F); cbn [rbind]; now rewrite <- L, le_encode_value.
  - intros n num body bs D Hb r. destruct n; cbn [uf_decode_value uf_number uf_wire_type]; now rewrite (delim_read _ _ _ D).
  - intros n num us body e R IH K Hb r. apply bytes_ok_app in Hb. destruct Hb as [Hb _].
    destruct (IH Hb) as (cs & -> & Hr & Hf). cbn [uf_decode_value uf_number uf_wire_type]. fold (uf_step n).
    rewrite <- app_assoc.
    rewrite (runs_group (uf_step n) (uf_step_ext n) (uf_step_rev n) num _ _ _ (Hr []) Hf e r); [reflexivity| |lia].
    rewrite <- (app_nil_r e). now apply key_read.
  - intros n num bs L Hb r.
    assert (F : fixed 4 (le_value bs) bs) by (split; [now apply little_value|exact L]).
    destruct n; cbn [uf_decode_value uf_number uf_wire_type]; rewrite (fixed4_read _ _ _ F); cbn [rbind]; now rewrite <- L, le_encode_value.
  - intros n _. exists []. split; [reflexivity|]. split; [|constructor]. intros acc. rewrite app_nil_r. constructor.
  - intros n u us kb pl rest K Hu IHu R IH Hb. apply bytes_ok_app in Hb. destruct Hb as [_ Hb]. apply bytes_ok_app in Hb. destruct Hb as [Hb1 Hb2].
    destruct (IH Hb2) as (cs & -> & Hr & Hf). exists ((kb ++ pl) :: cs). split; [cbn [concat]; now rewrite app_assoc|].
    split.
    + intros acc. econstructor; [exact (key_read _ _ _ pl K)| |].
      * unfold uf_step. specialize (IHu Hb1 []). rewrite app_nil_r in IHu. rewrite IHu. reflexivity.
      * specialize (Hr (acc ++ [u])). now rewrite <- app_assoc in Hr.
    + constructor; [|exact Hf]. exists (uf_number u), (uf_wire_type u), pl. split; [exact (key_read _ _ _ pl K)|apply uf_wire_type_not_end].
Qed.

Lemma skip_sound ctx : forall num w buf r, tag_ok num -> bytes_ok buf -> skip_field ctx w num buf = Ok r ->
  exists u pl, uf_number u = num /\ uf_wire_type u = w /\ buf = pl ++ r /\ skipped ctx u pl.
Proof.
  induction ctx as [|ctx IH]; intros num w buf r Ht Hb H; [discriminate|]. cbn [skip_field] in H. fold (skip_step ctx) in H.
  destruct w; try discriminate.
  - apply rbind_ok in H; destruct H as ([v r1] & H & E); injection E as <-. destruct (read_varint _ _ _ Hb H) as (pl & -> & V).
    exists (UVarint num v), pl. repeat split; auto. now constructor.
  - apply rbind_ok in H; destruct H as ([v r1] & H & E); injection E as <-. apply take_bytes_inv in H. destruct H as [-> L].
    exists (U64 num v), v. repeat split; auto. constructor. lia.
  - apply rbind_ok in H; destruct H as ([v r1] & H & E); injection E as <-. destruct (read_delim _ _ _ Hb H) as (pl & -> & V).
    exists (ULen num v), pl. repeat split; auto. now constructor.
  - destruct (group_loop (S (length buf)) (skip_step ctx) num tt buf) as [us r1| | |] eqn:E; try discriminate. injection H as <-.
    destruct (group_runs (skip_step ctx) (skip_step_ext ctx) (skip_step_rev ctx) _ _ _ _ _ _ E) as (cs & e & -> & R & He & _).
    apply bytes_ok_app in Hb. destruct Hb as [Hb Hb2]. apply bytes_ok_app in Hb2. destruct Hb2 as [Hb2 _].
    destruct (chunk_key _ _ _ _ Hb2 He) as (e' & -> & K & _). rewrite app_nil_r.
    assert (G : forall s cs s', runs (skip_step ctx) s cs s' -> bytes_ok (concat cs) -> exists vs, skips ctx vs (concat cs)).
    { clear -IH. induction 1 as [s|s c n w p s1 cs s' Hk Hs Hr IHr]; intros Hb.
      - exists []. constructor.
      - cbn [concat] in *. apply bytes_ok_app in Hb. destruct Hb as [Hb1 Hb2].
        destruct (IHr Hb2) as (vs & Hvs). unfold skip_step in Hs.
        destruct (skip_field ctx w n p) as [r| | |] eqn:Eu; try discriminate. injection Hs as <- ->.
        destruct (chunk_key _ _ _ _ Hb1 Hk) as (kb & -> & K & Hp).
        destruct (IH _ _ _ _ (proj1 K) Hp Eu) as (u & pl & <- & <- & -> & Hpl). rewrite app_nil_r.
        exists (u :: vs). rewrite <- app_assoc. now constructor. }
    destruct (G _ _ _ R Hb) as (vs & Hvs).
    exists (UGroup num vs), (concat cs ++ e'). repeat split; auto; [now rewrite app_assoc|]. now constructor.
  - apply rbind_ok in H; destruct H as ([v r1] & H & E); injection E as <-. apply take_bytes_inv in H. destruct H as [-> L].
    exists (U32 num v), v. repeat split; auto. constructor. lia.
Qed.
Lemma skip_complete :
  (forall n u pl, skipped n u pl -> forall r, skip_field n (uf_wire_type u) (uf_number u) (pl ++ r) = Ok r) /\
  (forall n us body, skips n us body ->
     exists cs, body = concat cs /\ runs (skip_step n) tt cs tt /\ Forall (key_is (fun _ w => w <> WEnd)) cs).
Proof.
  apply (skip_both (fun n u pl _ => forall r, skip_field n (uf_wire_type u) (uf_number u) (pl ++ r) = Ok r)
    (fun n us body _ =>
     exists cs, body = concat cs /\ runs (skip_step n) tt cs tt /\ Forall (key_is (fun _ w => w <> WEnd)) cs)).
  - intros n num v bs V r. cbn [skip_field uf_number uf_wire_type]; now rewrite (varint_read _ _ _ V).
  - intros n num bs L r. cbn [skip_field uf_number uf_wire_type]. now rewrite take_bytes_app by (rewrite L; reflexivity).
  - intros n num body bs D r. cbn [skip_field uf_number uf_wire_type]; now rewrite (delim_read _ _ _ D).
  - intros n num us body e R IH K r.
    destruct IH as (cs & -> & Hr & Hf). cbn [uf_number uf_wire_type].
    change (match group_loop (S (length ((concat cs ++ e) ++ r))) (skip_step n) num tt ((concat cs ++ e) ++ r) with
            | DOk _ r => Ok r | DErr e _ => Err e | DPanic => Panic | DFuel => Fuel end = Ok r).
    rewrite <- app_assoc.
    rewrite (runs_group (skip_step n) (skip_step_ext n) (skip_step_rev n) num _ _ _ Hr Hf e r); [reflexivity| |lia].
    rewrite <- (app_nil_r e). now apply key_read.
  - intros n num bs L r. cbn [skip_field uf_number uf_wire_type]. now rewrite take_bytes_app by (rewrite L; reflexivity).
  - intros n. exists []. split; [reflexivity|]. split; constructor.
  - intros n u us kb pl rest K Hu IHu R IH.
    destruct IH as (cs & -> & Hr & Hf). exists ((kb ++ pl) :: cs). split; [cbn [concat]; now rewrite app_assoc|].
    split.
    + econstructor; [exact (key_read _ _ _ pl K)| |exact Hr].
      unfold skip_step. specialize (IHu []). rewrite app_nil_r in IHu. rewrite IHu. reflexivity.
    + constructor; [|exact Hf]. exists (uf_number u), (uf_wire_type u), pl. split; [exact (key_read _ _ _ pl K)|apply uf_wire_type_not_end].
Qed.

(** ** Fields *)
Lemma bt_set_twice {A} k (v v0 : A) l : bt_set k v (bt_set k v0 l) = bt_set k v l.
Proof.
  induction l as [|[k1 v1] l IH]; cbn [bt_set].
  - rewrite N.ltb_irrefl, N.eqb_refl. reflexivity.
  - destruct (k <? k1) eqn:E1; cbn [bt_set]; rewrite ?N.ltb_irrefl, ?N.eqb_refl; [reflexivity|].
    destruct (k =? k1) eqn:E2; cbn [bt_set]; rewrite ?N.ltb_irrefl, ?N.eqb_refl; [reflexivity|]. rewrite E1, E2, IH. reflexivity.
Qed.
Lemma put_get_mut t f v fs : fs_put f v (fs_get_mut t f fs) = fs_set f v fs.
Proof.
  unfold fs_put, fs_get_mut, fs_set. destruct (bt_get (fd_number f) (fs_clear_oneof f fs)) as [[| |]|]; try apply bt_set_twice. reflexivity.
Qed.
Lemma get_get_mut t f fs : fs_get t f (fs_get_mut t f fs) = fs_get t f fs.
Proof. unfold fs_get at 1, fs_get_value. now rewrite get_mut_get, N.eqb_refl. Qed.

(** ** Kinds *)
Lemma packs_wt k w : packs k w <-> is_packable k = true /\ w = kind_wt k.
Proof.
  split; [destruct 1; split; reflexivity|]. intros [H ->]. destruct k; try discriminate; constructor.
Qed.
Lemma packs_holds t k w : packs k w -> holds k (kind_default t k).
Proof. destruct 1; constructor. Qed.
Lemma holds_merge t n f v w ctx b : holds (fd_kind f) v ->
  merge_value (S n) t f v w ctx b = match merge_scalar (fd_kind f) v w b with Some d => d | None => DPanic end.
Proof. intros H. destruct v; try reflexivity; exfalso; inversion H. Qed.
Lemma value_mk_inv v k : value_mk v = Some k -> v = mk_value k.
Proof. destruct v; try discriminate; intros [= <-]; reflexivity. Qed.
Lemma mk_value_mk k : value_mk (mk_value k) = Some k.
Proof. now destruct k. Qed.

(** ** The entry of a map *)
Definition entry_step (t : tables) (mv : fdl -> value -> wt -> nat -> bytes -> dres value) (kf vf : fdl) (ctx : nat)
  (kv : mapkey * value) (num : N) (w' : wt) (b : bytes) : dres (mapkey * value) :=
  if num =? MAP_KEY_NUMBER then dmap (fun k' => (k', snd kv)) (mk_merge (fd_kind kf) (fst kv) w' b)
  else if num =? MAP_VALUE_NUMBER then dmap (fun v' => (fst kv, v')) (mv vf (snd kv) w' ctx b)
  else match skip_field ctx w' num b with
       | Ok r => DOk kv r
       | Err e => DErr e kv
       | Panic => DPanic
       | Fuel => DFuel
       end.
Lemma entry_ext t n kf vf ctx x kv num w b :
  dext x b (entry_step t (merge_value n t) kf vf ctx kv num w b) (entry_step t (merge_value n t) kf vf ctx kv num w (b ++ x)).
Proof.
  unfold entry_step. destruct (num =? MAP_KEY_NUMBER); [apply dext_dmap, mk_merge_ext|].
  destruct (num =? MAP_VALUE_NUMBER); [apply dext_dmap, merge_value_ext|].
  pose proof (skip_field_ext x ctx w num b) as K. destruct (skip_field ctx w num b); try (split; exact I).
  destruct K as [K1 ->]. split; [exact K1|reflexivity].
Qed.
Lemma entry_rev t n kf vf ctx x kv num w b :
  drev x (entry_step t (merge_value n t) kf vf ctx kv num w (b ++ x)) (entry_step t (merge_value n t) kf vf ctx kv num w b).
Proof.
  unfold entry_step. destruct (num =? MAP_KEY_NUMBER); [apply drev_dmap, mk_merge_rev|].
  destruct (num =? MAP_VALUE_NUMBER); [apply drev_dmap, (proj1 (merge_value_rev t n))|].
  pose proof (skip_field_rev x ctx w num b) as K. destruct (skip_field ctx w num (b ++ x)); try exact I.
  intros r Hr. rewrite (K r Hr). reflexivity.
Qed.

Definition any_wt (w : wt) : Prop := True.
Section Sound.
  Context (t : tables) (Ht : tables_ok t).

  Definition value_sound (n : nat) : Prop := forall f v w ctx buf v' r, bytes_ok buf ->
    merge_value n t f v w ctx buf = DOk v' r -> exists pl, buf = pl ++ r /\ reads_value t any_wt ctx f v w pl v'.

  Lemma message_sound n ctx : value_sound n -> forall m cs m', runs (merge_msg_field t (merge_value n t) ctx) m cs m' ->
    bytes_ok (concat cs) -> reads_message t any_wt ctx m (concat cs) m'.
  Proof.
    intros IH. induction 1 as [m|m c num w p m1 cs m' Hk Hs Hr IHr]; intros Hb; [constructor|].
    cbn [concat] in *. apply bytes_ok_app in Hb. destruct Hb as [Hb1 Hb2]. specialize (IHr Hb2).
    destruct (chunk_key _ _ _ _ Hb1 Hk) as (kb & -> & K & Hp). unfold merge_msg_field in Hs. rewrite <- app_assoc.
    destruct (find_desc t (dm_desc m) num) as [f|] eqn:Ef.
    - pose proof (find_desc_number _ _ _ _ Ht Ef) as <-. unfold merge_into in Hs. rewrite get_get_mut in Hs.
      destruct (merge_value n t f (fs_get t f (dm_fields m)) w ctx p) as [v r| | |] eqn:Ev; try discriminate. injection Hs as <- ->.
      rewrite put_get_mut in IHr. destruct (IH _ _ _ _ _ _ _ Hp Ev) as (pl & -> & Hv). rewrite app_nil_r.
      eapply rm_field; eauto.
    - destruct (uf_decode_value ctx num w p) as [[u r]| | |] eqn:Eu; try discriminate.
      destruct (fs_add_unknown num u (dm_fields m)) as [fs| | |] eqn:Ea; try discriminate. injection Hs as <- ->.
      destruct (raw_sound _ _ _ _ _ _ (proj1 K) Hp Eu) as (<- & <- & pl & -> & Hpl). rewrite app_nil_r.
      eapply rm_unknown; eauto.
  Qed.
  Lemma entry_sound n kf vf ctx : value_sound n -> forall kv cs kv', runs (entry_step t (merge_value n t) kf vf ctx) kv cs kv' ->
    bytes_ok (concat cs) -> reads_entry t any_wt ctx kf vf (fst kv) (snd kv) (concat cs) (fst kv') (snd kv').
  Proof.
    intros IH. induction 1 as [kv|kv c num w p kv1 cs kv' Hk Hs Hr IHr]; intros Hb; [constructor|].
    cbn [concat] in *. apply bytes_ok_app in Hb. destruct Hb as [Hb1 Hb2]. specialize (IHr Hb2).
    destruct (chunk_key _ _ _ _ Hb1 Hk) as (kb & -> & K & Hp). unfold entry_step in Hs. rewrite <- app_assoc.
    destruct (N.eqb_spec num MAP_KEY_NUMBER) as [->|N1]; [|destruct (N.eqb_spec num MAP_VALUE_NUMBER) as [->|N2]].
    - unfold mk_merge in Hs. destruct (merge_scalar (fd_kind kf) (mk_value (fst kv)) w p) as [[x r|e x| |]|] eqn:Em; try discriminate;
        (destruct (value_mk x) as [k1|] eqn:Ek1; [|discriminate]); [|discriminate]. injection Hs as <- ->. cbn [fst snd] in IHr.
      destruct (read_scalar _ _ _ _ _ _ Hp Em) as (Hh & pl & -> & S). apply value_mk_inv in Ek1. subst x. rewrite app_nil_r.
      eapply re_key; eauto.
    - destruct (merge_value n t vf (snd kv) w ctx p) as [x r|e x| |] eqn:Em; try discriminate. injection Hs as <- ->. cbn [fst snd] in IHr.
      destruct (IH _ _ _ _ _ _ _ Hp Em) as (pl & -> & Hv). rewrite app_nil_r. eapply re_value; eauto.
    - destruct (skip_field ctx w num p) as [r| | |] eqn:Em; try discriminate. injection Hs as <- ->.
      destruct (skip_sound _ _ _ _ _ (proj1 K) Hp Em) as (u & pl & <- & <- & -> & Hu). rewrite app_nil_r. eapply re_other; eauto.
  Qed.

  (** the loop over the elements of a packed list *)
  Lemma packed_sound n f w ctx : packs (fd_kind f) w -> forall k limit vs b vs' r, bytes_ok b ->
    loop_until k (fun vs b => match merge_value n t f (kind_default t (fd_kind f)) w ctx b with
                              | DOk x r => DOk (vs ++ [x]) r | DErr e _ => DErr e vs | DPanic => DPanic | DFuel => DFuel end) limit vs b = DOk vs' r ->
    length r = limit /\ exists xs pls, vs' = vs ++ xs /\ b = concat pls ++ r /\ Forall2 (scalar (fd_kind f) w) xs pls.
  Proof.
    intros Hp. induction k as [|k IH]; intros limit vs b vs' r Hb; cbn [loop_until].
    - destruct (length b <=? limit)%nat; [|discriminate]. destruct (length b =? limit)%nat eqn:E; [|discriminate]. injection 1 as <- <-.
      split; [lia|]. exists [], []. rewrite app_nil_r. auto.
    - destruct (length b <=? limit)%nat.
      + destruct (length b =? limit)%nat eqn:E; [|discriminate]. injection 1 as <- <-.
        split; [lia|]. exists [], []. rewrite app_nil_r. auto.
      + destruct n as [|n]; [discriminate|]. rewrite (holds_merge t n f _ w ctx b (packs_holds t _ _ Hp)).
        destruct (merge_scalar (fd_kind f) (kind_default t (fd_kind f)) w b) as [[x r1| | |]|] eqn:Em; try discriminate.
        destruct (read_scalar _ _ _ _ _ _ Hb Em) as (_ & pl & -> & S). apply bytes_ok_app in Hb. destruct Hb as [_ Hb].
        intros H. destruct (IH _ _ _ _ _ Hb H) as (L & xs & pls & -> & -> & F). split; [exact L|].
        exists (x :: xs), (pl :: pls). cbn [concat]. rewrite <- !app_assoc. split; [reflexivity|]. split; [reflexivity|]. now constructor.
  Qed.

  Lemma value_is_sound n : value_sound n.
  Proof.
    induction n as [|n IH]; intros f v w ctx buf v' r Hb H; [discriminate|]. cbn [merge_value] in H.
    destruct v; cbn [merge_body] in H;
      try (destruct (merge_scalar (fd_kind f) _ w buf) as [d|] eqn:Em; [|discriminate];
           destruct (read_scalar (fd_kind f) _ w buf v' r Hb ltac:(rewrite Em, H; reflexivity)) as (Hh & pl & -> & S);
           exists pl; (split; [reflexivity|]); now constructor).
    - unfold fd_is_group in H. destruct (fd_kind f) eqn:Ek; cbn [kind_msg] in H; try discriminate.
      + destruct (wt_eqb WLen w) eqn:Ew; cbn [negb] in H; [|discriminate]. apply wt_eqb_eq in Ew. subst w.
        destruct ctx as [|ctx]; [discriminate|].
        destruct (merge_loop (keyed_step (merge_msg_field t (merge_value n t) ctx)) m buf) as [m' r'| | |] eqn:El; try discriminate.
        injection H as <- <-.
        apply (merge_loop_runs _ (merge_step_ext t n ctx) (merge_step_rev t n ctx)) in El.
        destruct El as (body & cs & Hd & -> & R). destruct (read_delim _ _ _ Hb Hd) as (pl & -> & D). exists pl. split; [reflexivity|].
        apply bytes_ok_app in Hb. destruct Hb as [Hb _]. assert (bytes_ok (concat cs)) as Hb'.
        { destruct D as (lb & _ & ->). apply bytes_ok_app in Hb. tauto. }
        eapply rv_message; [exact Ek|exact D|]. exact (message_sound n ctx IH _ _ _ R Hb').
      + destruct (wt_eqb WStart w) eqn:Ew; cbn [negb] in H; [|discriminate]. apply wt_eqb_eq in Ew. subst w.
        destruct ctx as [|ctx]; [discriminate|].
        destruct (group_loop (S (length buf)) (merge_msg_field t (merge_value n t) ctx) (fd_number f) m buf) as [m' r'| | |] eqn:El; try discriminate.
        injection H as <- <-.
        destruct (group_runs _ (merge_step_ext t n ctx) (merge_step_rev t n ctx) _ _ _ _ _ _ El) as (cs & e & -> & R & He & _).
        apply bytes_ok_app in Hb. destruct Hb as [Hb Hb2]. apply bytes_ok_app in Hb2. destruct Hb2 as [Hb2 _].
        destruct (chunk_key _ _ _ _ Hb2 He) as (e' & -> & K & _). rewrite app_nil_r.
        exists (concat cs ++ e'). split; [now rewrite app_assoc|]. eapply rv_group; [exact Ek| |exact K].
        exact (message_sound n ctx IH _ _ _ R Hb).
    - destruct (fd_is_list f) eqn:El; [|discriminate]. destruct (wt_eqb w WLen && fd_is_packable f) eqn:Ep.
      + apply andb_true_iff in Ep. destruct Ep as [Ew Ep]. apply wt_eqb_eq in Ew. subst w.
        assert (packs (fd_kind f) (kind_wt (fd_kind f))) as Hp by (apply packs_wt; auto).
        destruct (merge_loop _ vs buf) as [vs' r'| | |] eqn:Em in H; try discriminate. injection H as <- <-.
        unfold merge_loop in Em. destruct (decode_varint buf) as [[len y]| | |] eqn:Ev; try discriminate.
        destruct (N.of_nat (length y) <? len) eqn:EL; [discriminate|].
        destruct (read_varint _ _ _ Hb Ev) as (lb & -> & V). apply bytes_ok_app in Hb. destruct Hb as [_ Hb].
        destruct (packed_sound n f _ ctx Hp _ _ _ _ _ _ Hb Em) as (L & xs & pls & -> & -> & F).
        exists (lb ++ concat pls). split; [now rewrite app_assoc|]. eapply rv_packed; eauto.
        exists lb. split; [|reflexivity]. rewrite app_length in *. replace (N.of_nat (length (concat pls))) with len by lia. exact V.
      + destruct (merge_value n t f (kind_default t (fd_kind f)) w ctx buf) as [x r'| | |] eqn:Em; try discriminate. injection H as <- <-.
        destruct (IH _ _ _ _ _ _ _ Hb Em) as (pl & -> & Hv). exists pl. split; [reflexivity|]. apply rv_element; auto.
        intros (-> & w' & Hp). apply packs_wt in Hp. destruct Hp as [Hp _]. cbn in Ep. unfold fd_is_packable in Ep. congruence.
    - destruct (kind_msg (fd_kind f)) as [i|] eqn:Ei; [|discriminate]. destruct (fd_is_map f) eqn:Em; [|discriminate].
      destruct (entry_key t i) as [kf|] eqn:Ekf; [|discriminate]. destruct (entry_value t i) as [vf|] eqn:Evf; [|discriminate].
      destruct (mk_default (fd_kind kf)) as [k0|] eqn:Ek0; [|discriminate].
      fold (entry_step t (merge_value n t) kf vf ctx) in H.
      destruct (merge_loop (keyed_step (entry_step t (merge_value n t) kf vf ctx)) (k0, fd_default_value t vf) buf) as [[k' x'] r'| | |] eqn:El; try discriminate.
      injection H as <- <-.
      apply (merge_loop_runs _ (entry_ext t n kf vf ctx) (entry_rev t n kf vf ctx)) in El.
      destruct El as (body & cs & Hd & -> & R). destruct (read_delim _ _ _ Hb Hd) as (pl & -> & D). exists pl. split; [reflexivity|].
      apply bytes_ok_app in Hb. destruct Hb as [Hb _]. assert (bytes_ok (concat cs)) as Hb'.
      { destruct D as (lb & _ & ->). apply bytes_ok_app in Hb. tauto. }
      eapply rv_entry; eauto; [exact Logic.I|]. exact (entry_sound n kf vf ctx IH _ _ _ R Hb').
  Qed.

  Theorem merge_sound m buf m' r : bytes_ok buf -> msg_merge t m buf = DOk m' r -> r = [] /\ reads_message t any_wt 100 m buf m'.
  Proof.
    intros Hb H. unfold msg_merge, msg_merge_fuel in H.
    destruct (stream_runs _ (merge_step_ext t _ ctx0) (merge_step_rev t _ ctx0) _ _ _ _ _ H) as (-> & cs & -> & R).
    split; [reflexivity|]. exact (message_sound _ ctx0 (value_is_sound _) _ _ _ R Hb).
  Qed.
End Sound.

(** ** Everything the grammar allows is read *)
Lemma runs_mono {S} (s1 s2 : S -> N -> wt -> bytes -> dres S) : (forall s n w b, dle (s1 s n w b) (s2 s n w b)) ->
  forall s cs s', runs s1 s cs s' -> runs s2 s cs s'.
Proof. intros H. induction 1; [constructor|]. econstructor; eauto. eapply dle_ok; [apply H|eassumption]. Qed.
Lemma not_end t (ew : wt -> Prop) n f v w pl v' : (forall w, ew w -> w <> WEnd) -> reads_value t ew n f v w pl v' -> w <> WEnd.
Proof.
  intros He. induction 1; try discriminate; auto.
  intros ->. match goal with H : scalar _ _ _ _ |- _ => inversion H end.
Qed.

Section Complete.
  Context (t : tables) (ew : wt -> Prop) (He : forall w, ew w -> w <> WEnd).

  Lemma entry_mono j j' kf vf n kv cs kv' : (j <= j')%nat -> runs (entry_step t (merge_value j t) kf vf n) kv cs kv' ->
    runs (entry_step t (merge_value j' t) kf vf n) kv cs kv'.
  Proof.
    intros Hj. apply runs_mono. intros s num w b. unfold entry_step. destruct (num =? MAP_KEY_NUMBER); [apply dle_refl|].
    destruct (num =? MAP_VALUE_NUMBER); [|apply dle_refl]. apply dle_dmap. now apply merge_value_dle_le.
  Qed.
  Lemma message_mono j j' n m cs m' : (j <= j')%nat -> runs (merge_msg_field t (merge_value j t) n) m cs m' ->
    runs (merge_msg_field t (merge_value j' t) n) m cs m'.
  Proof. intros Hj. apply runs_mono. intros. apply merge_msg_field_dle. intros. now apply merge_value_dle_le. Qed.
  Lemma value_mono j j' f v w n b x r : (j <= j')%nat -> merge_value j t f v w n b = DOk x r -> merge_value j' t f v w n b = DOk x r.
  Proof. intros Hj. apply dle_ok. now apply merge_value_dle_le. Qed.
  Lemma value_app j f v w n b x y : merge_value j t f v w n b = DOk x [] -> merge_value j t f v w n (b ++ y) = DOk x y.
  Proof. intros H. destruct (merge_value_ext t j y f v w n b) as [_ G]. rewrite H in G. exact G. Qed.

  Lemma packed_complete n f w ctx : packs (fd_kind f) w -> forall xs pls, Forall2 (scalar (fd_kind f) w) xs pls ->
    forall k r vs, (length (concat pls) <= k)%nat ->
    loop_until k (fun vs b => match merge_value (S n) t f (kind_default t (fd_kind f)) w ctx b with
                              | DOk x r => DOk (vs ++ [x]) r | DErr e _ => DErr e vs | DPanic => DPanic | DFuel => DFuel end)
      (length r) vs (concat pls ++ r) = DOk (vs ++ xs) r.
  Proof.
    intros Hp. induction 1 as [|x pl xs pls Hx F IH]; intros k r vs Hk.
    - cbn [concat app]. rewrite app_nil_r. destruct k; cbn [loop_until]; now rewrite Nat.leb_refl, Nat.eqb_refl.
    - cbn [concat] in *. pose proof (scalar_read _ _ _ _ _ (concat pls ++ r) (packs_holds t _ _ Hp) Hx) as E.
      pose proof (merge_scalar_strict _ _ _ _ _ _ (proj1 (proj1 (packs_wt _ _) Hp)) E) as L. rewrite !app_length in *.
      destruct k as [|k]; [lia|]. cbn [loop_until]. rewrite <- app_assoc.
      destruct (length (pl ++ concat pls ++ r) <=? length r)%nat eqn:El; [rewrite !app_length in El; lia|].
      rewrite (holds_merge t n f _ w ctx _ (packs_holds t _ _ Hp)), E.
      rewrite IH by lia. now rewrite <- app_assoc.
  Qed.

  Lemma reads_complete :
    (forall n f v w pl v', reads_value t ew n f v w pl v' -> bytes_ok pl -> exists j, merge_value j t f v w n pl = DOk v' []) /\
    (forall n kf vf k v body k' v', reads_entry t ew n kf vf k v body k' v' -> bytes_ok body ->
       exists j cs, body = concat cs /\ runs (entry_step t (merge_value j t) kf vf n) (k, v) cs (k', v')) /\
    (forall n m body m', reads_message t ew n m body m' -> bytes_ok body ->
       exists j cs, body = concat cs /\ runs (merge_msg_field t (merge_value j t) n) m cs m' /\ Forall (key_is (fun _ w => w <> WEnd)) cs).
  Proof.
    apply (reads_mut t ew
      (fun n f v w pl v' _ => bytes_ok pl -> exists j, merge_value j t f v w n pl = DOk v' [])
      (fun n kf vf k v body k' v' _ => bytes_ok body ->
         exists j cs, body = concat cs /\ runs (entry_step t (merge_value j t) kf vf n) (k, v) cs (k', v'))
      (fun n m body m' _ => bytes_ok body ->
         exists j cs, body = concat cs /\ runs (merge_msg_field t (merge_value j t) n) m cs m' /\ Forall (key_is (fun _ w => w <> WEnd)) cs)).
    - (* scalar *)
      intros n f v w x pl Hh Hs _. exists 1%nat. rewrite (holds_merge t 0 f v w n pl Hh).
      pose proof (scalar_read _ _ _ _ _ [] Hh Hs) as E. rewrite app_nil_r in E. now rewrite E.
    - (* message *)
      intros n f i m m' body pl Ek D _ IH Hb. assert (bytes_ok body) as Hb'. { destruct D as (lb & _ & ->). apply bytes_ok_app in Hb. tauto. }
      destruct (IH Hb') as (j & cs & -> & R & _). exists (S j). cbn [merge_value merge_body]. unfold fd_is_group. rewrite Ek. cbn [kind_msg negb wt_eqb].
      assert (merge_loop (keyed_step (merge_msg_field t (merge_value j t) n)) m pl = DOk m' []) as E.
      { apply (merge_loop_runs _ (merge_step_ext t j n) (merge_step_rev t j n)). exists (concat cs), cs. split; [|auto].
        rewrite <- (app_nil_r pl). now apply delim_read. }
      change (wt_eqb WLen WLen) with true. cbn [negb]. rewrite E. reflexivity.
    - (* group *)
      intros n f i m m' body e Ek _ IH K Hb. apply bytes_ok_app in Hb. destruct Hb as [Hb _].
      destruct (IH Hb) as (j & cs & -> & R & Fe). exists (S j). cbn [merge_value merge_body]. unfold fd_is_group. rewrite Ek. cbn [kind_msg].
      change (wt_eqb WStart WStart) with true. cbn [negb].
      pose proof (runs_group _ (merge_step_ext t j n) (merge_step_rev t j n) (fd_number f) _ _ _ R Fe e [] (S (length (concat cs ++ e)))) as E.
      rewrite app_nil_r in E. rewrite E; [reflexivity| |lia]. rewrite <- (app_nil_r e). now apply key_read.
    - (* packed *)
      intros n f vs w xs pls pl El Hp F D Hb. exists 2%nat. cbn [merge_value]. unfold merge_body at 1. rewrite El.
      pose proof (proj1 (packs_wt _ _) Hp) as [P W]. unfold fd_is_packable. rewrite P. change (wt_eqb WLen WLen) with true. cbn [andb].
      destruct D as (lb & V & ->). unfold merge_loop. rewrite (varint_read _ _ _ V).
      rewrite N.ltb_irrefl. rewrite Nnat.Nat2N.id, Nat.sub_diag. subst w.
      pose proof (packed_complete 0 f _ n Hp xs pls F (S (length (concat pls))) [] vs ltac:(lia)) as E.
      rewrite app_nil_r in E. cbn [length] in E. cbn [merge_value] in E. rewrite E. reflexivity.
    - (* element *)
      intros n f vs w x pl El Np _ IH Hb. destruct (IH Hb) as (j & E). exists (S j). cbn [merge_value]. unfold merge_body. rewrite El.
      destruct (wt_eqb w WLen && fd_is_packable f) eqn:Ep.
      + exfalso. apply andb_true_iff in Ep. destruct Ep as [Ew Ep]. apply wt_eqb_eq in Ew. apply Np. split; [exact Ew|].
        exists (kind_wt (fd_kind f)). apply packs_wt. auto.
      + rewrite E. reflexivity.
    - (* map entry *)
      intros n f i kvs w kf vf k0 k v body pl Hw Em Ei Ekf Evf Ek0 D _ IH Hb.
      assert (bytes_ok body) as Hb'. { destruct D as (lb & _ & ->). apply bytes_ok_app in Hb. tauto. }
      destruct (IH Hb') as (j & cs & -> & R). exists (S j). cbn [merge_value]. unfold merge_body. rewrite Ei, Em, Ekf, Evf, Ek0.
      fold (entry_step t (merge_value j t) kf vf n).
      assert (merge_loop (keyed_step (entry_step t (merge_value j t) kf vf n)) (k0, fd_default_value t vf) pl = DOk (k, v) []) as E.
      { apply (merge_loop_runs _ (entry_ext t j kf vf n) (entry_rev t j kf vf n)). exists (concat cs), cs. split; [|auto].
        rewrite <- (app_nil_r pl). now apply delim_read. }
      rewrite E. reflexivity.
    - intros n kf vf k v _. exists O, []. split; [reflexivity|constructor].
    - (* key *)
      intros n kf vf k v kb w pl rest k1 k' v' K Hh Hs _ IH Hb. apply bytes_ok_app in Hb. destruct Hb as [_ Hb]. apply bytes_ok_app in Hb. destruct Hb as [_ Hb].
      destruct (IH Hb) as (j & cs & -> & R). exists j, ((kb ++ pl) :: cs). split; [cbn [concat]; now rewrite app_assoc|].
      econstructor; [exact (key_read _ _ _ pl K)| |exact R]. unfold entry_step. change (1 =? MAP_KEY_NUMBER) with true. cbn [fst snd].
      unfold mk_merge. pose proof (scalar_read _ _ _ _ _ [] Hh Hs) as E. rewrite app_nil_r in E. rewrite E, mk_value_mk. reflexivity.
    - (* value *)
      intros n kf vf k v kb w pl rest v1 k' v' K _ IHv _ IH Hb. apply bytes_ok_app in Hb. destruct Hb as [_ Hb]. apply bytes_ok_app in Hb. destruct Hb as [Hb1 Hb2].
      destruct (IHv Hb1) as (j1 & E1). destruct (IH Hb2) as (j2 & cs & -> & R).
      exists (Nat.max j1 j2), ((kb ++ pl) :: cs). split; [cbn [concat]; now rewrite app_assoc|].
      econstructor; [exact (key_read _ _ _ pl K)| |eapply entry_mono; [|exact R]; lia].
      unfold entry_step. change (2 =? MAP_KEY_NUMBER) with false. change (2 =? MAP_VALUE_NUMBER) with true. cbn [fst snd].
      rewrite (value_mono j1 (Nat.max j1 j2) _ _ _ _ _ _ _ ltac:(lia) E1). reflexivity.
    - (* another field of the entry *)
      intros n kf vf k v kb u pl rest k' v' K N1 N2 Hu _ IH Hb. apply bytes_ok_app in Hb. destruct Hb as [_ Hb]. apply bytes_ok_app in Hb. destruct Hb as [_ Hb].
      destruct (IH Hb) as (j & cs & -> & R). exists j, ((kb ++ pl) :: cs). split; [cbn [concat]; now rewrite app_assoc|].
      econstructor; [exact (key_read _ _ _ pl K)| |exact R]. unfold entry_step, MAP_KEY_NUMBER, MAP_VALUE_NUMBER.
      destruct (N.eqb_spec (uf_number u) 1); [contradiction|]. destruct (N.eqb_spec (uf_number u) 2); [contradiction|].
      pose proof (proj1 skip_complete _ _ _ Hu []) as E. rewrite app_nil_r in E. rewrite E. reflexivity.
    - intros n m _. exists O, []. split; [reflexivity|]. split; constructor.
    - (* field *)
      intros n m kb w pl rest f v m' K Ef Hv IHv _ IH Hb. apply bytes_ok_app in Hb. destruct Hb as [_ Hb]. apply bytes_ok_app in Hb. destruct Hb as [Hb1 Hb2].
      destruct (IHv Hb1) as (j1 & E1). destruct (IH Hb2) as (j2 & cs & -> & R & Fe).
      exists (Nat.max j1 j2), ((kb ++ pl) :: cs). split; [cbn [concat]; now rewrite app_assoc|]. split.
      + econstructor; [exact (key_read _ _ _ pl K)| |eapply message_mono; [|exact R]; lia].
        unfold merge_msg_field. rewrite Ef. unfold merge_into. rewrite get_get_mut.
        unfold get_field_value in E1. rewrite (value_mono j1 (Nat.max j1 j2) _ _ _ _ _ _ _ ltac:(lia) E1). now rewrite put_get_mut.
      + constructor; [|exact Fe]. exists (fd_number f), w, pl. split; [exact (key_read _ _ _ pl K)|]. exact (not_end _ _ _ _ _ _ _ _ He Hv).
    - (* unknown field *)
      intros n m kb u pl rest fs m' K Ef Hu Ea _ IH Hb. apply bytes_ok_app in Hb. destruct Hb as [_ Hb]. apply bytes_ok_app in Hb. destruct Hb as [Hb1 Hb2].
      destruct (IH Hb2) as (j & cs & -> & R & Fe). exists j, ((kb ++ pl) :: cs). split; [cbn [concat]; now rewrite app_assoc|]. split.
      + econstructor; [exact (key_read _ _ _ pl K)| |exact R]. unfold merge_msg_field. rewrite Ef.
        pose proof (proj1 raw_complete _ _ _ Hu Hb1 []) as E. rewrite app_nil_r in E. rewrite E, Ea. reflexivity.
      + constructor; [|exact Fe]. exists (uf_number u), (uf_wire_type u), pl. split; [exact (key_read _ _ _ pl K)|apply uf_wire_type_not_end].
  Qed.

  Theorem merge_complete m buf m' : wf t -> ok_msg t m = true -> bytes_ok buf ->
    reads_message t ew 100 m buf m' -> msg_merge t m buf = DOk m' [].
  Proof.
    intros Hwf Hm Hb H. destruct (proj2 (proj2 reads_complete) _ _ _ _ H Hb) as (j & cs & -> & R & _).
    unfold msg_merge. set (k := Nat.max j (merge_fuel (concat cs))).
    assert (msg_merge_fuel k t m (concat cs) = DOk m' []) as E.
    { unfold msg_merge_fuel. apply (runs_stream _ (merge_step_ext t k ctx0) (merge_step_rev t k ctx0)); [|lia].
      eapply message_mono; [|exact R]. unfold k. lia. }
    apply ok_msg_iff in Hm.
    assert (I : msg_inv t (dm_desc m) (msg_depth m) m) by (split; [reflexivity|]; split; [exact Hm|lia]).
    rewrite (msg_merge_202 t (dm_desc m) (msg_depth m) m _ (merge_fuel (concat cs)) Hwf Hb I) by (unfold merge_fuel; lia).
    rewrite <- E. symmetry. apply (msg_merge_202 t (dm_desc m) (msg_depth m) m _ k Hwf Hb I). unfold k, merge_fuel. lia.
  Qed.
End Complete.
