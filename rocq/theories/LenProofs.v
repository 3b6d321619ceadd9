(** encoded_len is exact (C01) and encoding valid messages never panics (C03). *)
From Verif Require Import Base BaseProofs Wire WireProofs Unknown UnknownProofs Value Descr Fields
  Codec DescrOk DescrProofs FieldsProofs.

(** ** The encoders on messages, without the closures *)
Definition item_map {A B} (g : A -> B) (it : item A) : item B :=
  match it with
  | IField f v => IField f (g v)
  | IExt f v => IExt f (g v)
  | IUnk us => IUnk us
  end.

Lemma bt_get_annotate {R} (g : value -> fdl -> res R) fs k :
  bt_get k (map (annotate g) fs) =
  match bt_get k fs with
  | Some (SVal v) => Some (SVal (v, g v))
  | Some Taken => Some Taken
  | Some (SUnk us) => Some (SUnk us)
  | None => None
  end.
Proof.
  induction fs as [|[n s] fs IH]; [reflexivity|]. cbn [map annotate fst snd bt_get].
  destruct (k =? n); [destruct s; reflexivity|exact IH].
Qed.

Lemma iter_gen_annotate {R} t (g : value -> fdl -> res R) d io fs :
  fs_iter_gen t fst (ann_dflt t) d false io (map (annotate g) fs) =
  map (item_map (fun v => (v, g v))) (fs_iter t d false io fs).
Proof.
  unfold fs_iter, fs_iter_gen. rewrite map_app. f_equal.
  - unfold iter_declared. generalize (if io then msg_fields_index t d else msg_fields t d) as descs.
    induction descs as [|f descs IH]; [reflexivity|].
    cbn [flat_map]. rewrite map_app, IH. f_equal.
    unfold fs_get_value. rewrite bt_get_annotate.
    destruct (bt_get (fd_number f) fs) as [[|v|us]|]; try reflexivity.
    cbn [fst]. destruct (fd_has t f v); reflexivity.
  - unfold iter_rest. induction fs as [|[n s] fs IH]; [reflexivity|].
    cbn [map flat_map]. rewrite map_app, IH. f_equal.
    cbn [annotate fst snd]. destruct s as [|v|us]; try reflexivity.
    destruct (get_ext t d n) as [x|]; [|reflexivity]. cbn [fst].
    destruct (fd_has t x v); reflexivity.
Qed.

Lemma rsum_map {A B} (h : A -> B) (g : B -> res N) l : rsum g (map h l) = rsum (fun x => g (h x)) l.
Proof. induction l as [|a l IH]; cbn; [reflexivity|]. now rewrite IH. Qed.
Lemma rcat_map {A B} (h : A -> B) (g : B -> res bytes) l : rcat g (map h l) = rcat (fun x => g (h x)) l.
Proof. induction l as [|a l IH]; cbn; [reflexivity|]. now rewrite IH. Qed.
Lemma rsum_ext {A} (g h : A -> res N) l : (forall x, In x l -> g x = h x) -> rsum g l = rsum h l.
Proof.
  induction l as [|a l IH]; cbn; intros H; [reflexivity|].
  rewrite (H a) by auto. rewrite IH by auto. reflexivity.
Qed.
Lemma rcat_ext {A} (g h : A -> res bytes) l : (forall x, In x l -> g x = h x) -> rcat g l = rcat h l.
Proof.
  induction l as [|a l IH]; cbn; intros H; [reflexivity|].
  rewrite (H a) by auto. rewrite IH by auto. reflexivity.
Qed.

Lemma len_value_msg t m f :
  len_value t (VMessage m) f =
  if negb (fd_presence f) && is_default_for t f (VMessage m) then Ok 0
  else match kind_msg (fd_kind f) with
       | None => Panic
       | Some _ =>
           let! l := len_msg t m in
           if fd_is_group f then Ok (2 * key_len (fd_number f) + l)
           else Ok (key_len (fd_number f) + encoded_len_varint l + l)
       end.
Proof.
  destruct m as [d fs]. cbn [len_value].
  destruct (negb (fd_presence f) && is_default_for t f (VMessage (DM d fs))); [reflexivity|].
  destruct (kind_msg (fd_kind f)); [|reflexivity].
  f_equal. change (map _ fs) with (map (annotate (len_value t)) fs).
  rewrite iter_gen_annotate, rsum_map. unfold len_msg. cbn [dm_desc dm_fields].
  apply rsum_ext. intros [f' v|f' v|us] _; reflexivity.
Qed.

Lemma enc_value_msg t m f :
  enc_value t (VMessage m) f =
  if negb (fd_presence f) && is_default_for t f (VMessage m) then Ok []
  else match kind_msg (fd_kind f) with
       | None => Panic
       | Some _ =>
           let! body := enc_msg t m in
           if fd_is_group f then
             Ok (encode_key (fd_number f) WStart ++ body ++ encode_key (fd_number f) WEnd)
           else
             let! l := len_msg t m in
             Ok (encode_key (fd_number f) WLen ++ encode_varint l ++ body)
       end.
Proof.
  destruct m as [d fs]. cbn [enc_value].
  destruct (negb (fd_presence f) && is_default_for t f (VMessage (DM d fs))); [reflexivity|].
  destruct (kind_msg (fd_kind f)); [|reflexivity].
  f_equal. change (map _ fs) with (map (annotate (enc_value t)) fs).
  rewrite iter_gen_annotate, rcat_map. unfold enc_msg. cbn [dm_desc dm_fields].
  apply rcat_ext. intros [f' v|f' v|us] _; reflexivity.
Qed.

(** ** What the items of a message are *)
Lemma iter_items t d io fs it :
  tables_ok t -> In it (fs_iter t d false io fs) ->
  match it with
  | IField f v => get_field t d (fd_number f) = Some f /\ bt_get (fd_number f) fs = Some (SVal v)
                  /\ fd_has t f v = true
  | IExt f v => get_ext t d (fd_number f) = Some f /\ In (fd_number f, SVal v) fs
                  /\ fd_has t f v = true
  | IUnk us => exists n, In (n, SUnk us) fs
  end.
Proof.
  intros Ht. unfold fs_iter, fs_iter_gen. rewrite in_app_iff. intros [H|H].
  - unfold iter_declared in H. apply in_flat_map in H. destruct H as (f & Hf & H).
    assert (Hg : get_field t d (fd_number f) = Some f).
    { destruct io; [now apply msg_fields_index_get|now apply msg_fields_get]. }
    unfold fs_get_value in H. cbn [andb] in H.
    destruct (bt_get (fd_number f) fs) as [[|v|us]|] eqn:Eb; try contradiction.
    destruct (fd_has t f v) eqn:Eh; [|contradiction]. destruct H as [<-|[]]. auto.
  - unfold iter_rest in H. apply in_flat_map in H. destruct H as ([n s] & Hin & H).
    cbn [snd fst] in H. destruct s as [|v|us]; try contradiction.
    + destruct (get_ext t d n) as [x|] eqn:Ex; [|contradiction].
      destruct (fd_has t x v) eqn:Eh; [|contradiction]. destruct H as [<-|[]].
      pose proof (get_ext_number _ _ _ _ Ht Ex) as En. subst n. auto.
    + destruct H as [<-|[]]. eauto.
Qed.

(** ** C01 *)

(** The ranges Rust's own types enforce, at any depth. *)
Definition mk_rust (k : mapkey) : bool :=
  match k with MKU32 n => u32_ok n | MKU64 n => u64_ok n | _ => true end.
Fixpoint rust_ok (v : value) : bool :=
  match v with
  | VU32 n => u32_ok n
  | VU64 n => u64_ok n
  | VList vs => forallb rust_ok vs
  | VMap kvs => forallb (fun kv => mk_rust (fst kv) && rust_ok (snd kv)) kvs
  | VMessage (DM _ fs) =>
      forallb (fun kv =>
        match snd kv with
        | SVal v' => rust_ok v'
        | SUnk us => forallb uf_okb us
        | Taken => true
        end) fs
  | _ => true
  end.
Definition rust_ok_msg (m : dynmsg) : bool := rust_ok (VMessage m).

Definition agree (l : res N) (b : res bytes) : Prop :=
  match l, b with
  | Ok n, Ok bs => N.of_nat (length bs) < two64 -> n = N.of_nat (length bs)
  | Panic, Panic => True
  | _, _ => False
  end.

Lemma agree_sum {A} (g : A -> res N) (h : A -> res bytes) l :
  (forall x, In x l -> agree (g x) (h x)) -> agree (rsum g l) (rcat h l).
Proof.
  induction l as [|a l IH]; intros H; [cbn; auto|].
  pose proof (H a (or_introl eq_refl)) as Ha.
  pose proof (IH (fun x Hx => H x (or_intror Hx))) as Hl.
  cbn [rsum rcat]. unfold agree in Ha.
  destruct (g a) as [n| | |], (h a) as [b| | |]; try contradiction; cbn [rbind]; [|exact I].
  change ((fix go (l : list A) : res N := _) l) with (rsum g l).
  change ((fix go (l : list A) : res bytes := _) l) with (rcat h l).
  unfold agree in Hl.
  destruct (rsum g l) as [n'| | |], (rcat h l) as [b'| | |]; try contradiction; cbn [rbind]; [|exact I].
  cbn. rewrite app_length. intros HL. rewrite Ha by lia. rewrite Hl by lia. lia.
Qed.

Definition agree_opt (l : option N) (b : option bytes) : Prop :=
  match l, b with
  | Some n, Some bs => N.of_nat (length bs) < two64 -> n = N.of_nat (length bs)
  | None, None => True
  | _, _ => False
  end.
Lemma agree_of_opt l b : agree_opt l b -> agree (of_opt l) (of_opt b).
Proof. destruct l, b; cbn; auto. Qed.

Lemma bool_small (b : bool) : (if b then 1 else 0) < two64.
Proof. unfold two64. destruct b; lia. Qed.
Lemma u32_ok_64 n : u32_ok n = true -> n < two64.
Proof. unfold u32_ok, two32, two64. lia. Qed.
Lemma u64_ok_64 n : u64_ok n = true -> n < two64.
Proof. unfold u64_ok. lia. Qed.
Lemma zz32_64 z : zigzag32 z < two64.
Proof. pose proof (zigzag32_bound z). unfold two32, two64 in *. lia. Qed.

Lemma delimited_agree s :
  N.of_nat (length (write_delimited s)) < two64 ->
  delimited_len s = N.of_nat (length (write_delimited s)).
Proof.
  intros H. apply delimited_len_correct. unfold write_delimited in H. rewrite app_length in H. lia.
Qed.

Ltac len_goal :=
  intros;
  first [ exact I
        | apply encoded_len_varint_correct;
          first [apply zu64_bound | apply bool_small | apply zz32_64 | apply zigzag64_bound
                | apply u32_ok_64; assumption | apply u64_ok_64; assumption]
        | rewrite le_encode_length; reflexivity
        | apply delimited_agree; assumption ].

Lemma scalar_agree k v :
  rust_ok v = true ->
  agree_opt (len_scalar k v) (option_map snd (enc_scalar k v)).
Proof.
  intros H.
  destruct v; destruct k; cbn [len_scalar enc_scalar option_map snd agree_opt]; cbn in H; len_goal.
Qed.

Lemma packed_agree k v :
  rust_ok v = true -> agree_opt (len_packed k v) (enc_packed k v).
Proof.
  intros H.
  destruct k; destruct v; cbn [len_packed enc_packed agree_opt]; cbn in H;
    rewrite ?from_sint32_zigzag, ?from_sint64_zigzag; len_goal.
Qed.

Lemma mk_scalar_agree k key :
  mk_rust key = true ->
  agree_opt (mk_len_scalar k key) (option_map snd (mk_enc_scalar k key)).
Proof.
  intros H.
  destruct key; destruct k; cbn [mk_len_scalar mk_enc_scalar option_map snd agree_opt]; cbn in H;
    len_goal.
Qed.

Lemma mk_agree f key :
  tag_ok (fd_number f) -> mk_rust key = true -> agree (mk_len f key) (mk_encode f key).
Proof.
  intros Ht Hr. unfold mk_len, mk_encode, mk_omitted.
  destruct (fd_presence f).
  2: destruct (mk_default (fd_kind f)) as [dk|]; cbn [of_opt rbind]; [|exact I].
  2: destruct (mk_eqb key dk); [cbn; auto|].
  all: cbn [rbind]; pose proof (mk_scalar_agree (fd_kind f) key Hr) as A;
    destruct (mk_len_scalar (fd_kind f) key) as [n|], (mk_enc_scalar (fd_kind f) key) as [[w b]|];
    cbn [option_map snd fst agree_opt of_opt rbind agree] in A |- *; try contradiction; auto;
    rewrite app_length, Nat2N.inj_add, <- (key_len_correct _ w Ht); intros HL;
    rewrite A by lia; reflexivity.
Qed.

Lemma entry_number t e kf : tables_ok t -> entry_key t e = Some kf -> tag_ok (fd_number kf).
Proof. intros Ht H. apply (fo_tag t). eapply get_field_ok; eassumption. Qed.
Lemma entry_vnumber t e kf : tables_ok t -> entry_value t e = Some kf -> tag_ok (fd_number kf).
Proof. intros Ht H. apply (fo_tag t). eapply get_field_ok; eassumption. Qed.

Lemma len_prefix_agree n w l (b : bytes) :
  tag_ok n ->
  (N.of_nat (length b) < two64 -> l = N.of_nat (length b)) ->
  N.of_nat (length (encode_key n w ++ encode_varint l ++ b)) < two64 ->
  key_len n + encoded_len_varint l + l
  = N.of_nat (length (encode_key n w ++ encode_varint l ++ b)).
Proof.
  intros Hn Hl. rewrite !app_length, !Nat2N.inj_add. intros HL.
  assert (E : l = N.of_nat (length b)) by (apply Hl; lia).
  rewrite <- (key_len_correct _ w Hn) in *.
  rewrite (encoded_len_varint_correct l) by lia. lia.
Qed.

Lemma items_agree t m :
  tables_ok t ->
  Forall (fun kv => slot_all (fun v => rust_ok v = true -> forall f, tag_ok (fd_number f) ->
     agree (len_value t v f) (enc_value t v f)) (snd kv)) (dm_fields m) ->
  rust_ok_msg m = true ->
  agree (len_msg t m) (enc_msg t m).
Proof.
  intros Ht IH Hr. unfold len_msg, enc_msg. apply agree_sum. intros it Hit.
  unfold rust_ok_msg in Hr. destruct m as [d fs]. cbn [dm_desc dm_fields rust_ok] in *.
  rewrite forallb_forall in Hr. rewrite Forall_forall in IH.
  pose proof (iter_items _ _ _ _ _ Ht Hit) as Hi.
  destruct it as [f v|f v|us]; cbn [len_item enc_item].
  - destruct Hi as (Hf & Hb & _). apply bt_get_In in Hb.
    apply (IH _ Hb); [exact (Hr _ Hb)|]. apply (fo_tag t). eapply get_field_ok; eassumption.
  - destruct Hi as (Hf & Hb & _).
    apply (IH _ Hb); [exact (Hr _ Hb)|]. apply (fo_tag t).
    now destruct (get_ext_inv _ _ _ _ Ht Hf) as (_ & _ & ?).
  - destruct Hi as (n & Hb). pose proof (Hr _ Hb) as Hu. cbn in Hu.
    cbn [agree]. intros HL. apply ufs_len_correct; [|exact HL].
    apply Forall_forall. intros u Hu'. rewrite forallb_forall in Hu. apply uf_okb_ok. auto.
Qed.

Lemma value_agree t :
  tables_ok t ->
  forall v, rust_ok v = true -> forall f, tag_ok (fd_number f) ->
  agree (len_value t v f) (enc_value t v f).
Proof.
  intros Ht v. induction v as [b|z|z|n|n|n|n|s|s|z|d fs IH|vs IH|kvs IH] using value_ind';
    intros Hr f Hf.
  11: { rewrite len_value_msg, enc_value_msg.
    destruct (negb (fd_presence f) && is_default_for t f (VMessage (DM d fs))); [cbn; auto|].
    destruct (kind_msg (fd_kind f)); [|exact I].
    pose proof (items_agree t (DM d fs) Ht IH Hr) as A.
    destruct (len_msg t (DM d fs)) as [l| | |], (enc_msg t (DM d fs)) as [b| | |];
      cbn in A; try contradiction; cbn [rbind]; [|exact I].
    destruct (fd_is_group f); cbn [agree].
    - rewrite !app_length, !Nat2N.inj_add. rewrite <- !(key_len_correct _ _ Hf).
      intros HL. rewrite A by lia. lia.
    - apply len_prefix_agree; assumption. }
  11: { cbn [len_value enc_value].
    destruct (negb (fd_presence f) && is_default_for t f (VList vs)); [cbn; auto|].
    destruct (fd_is_list f); [|exact I].
    cbn in Hr. rewrite forallb_forall in Hr. rewrite Forall_forall in IH.
    destruct (fd_packed f).
    - destruct (negb (fd_is_packable f)); [exact I|].
      assert (A : agree (rsum (fun x => of_opt (len_packed (fd_kind f) x)) vs)
                        (rcat (fun x => of_opt (enc_packed (fd_kind f) x)) vs)).
      { apply agree_sum. intros x Hx. apply agree_of_opt, packed_agree. auto. }
      destruct (rsum _ vs) as [l| | |], (rcat _ vs) as [b| | |]; cbn in A; try contradiction;
        cbn [rbind]; [|exact I].
      cbn [agree]. apply len_prefix_agree; assumption.
    - apply agree_sum. intros x Hx. apply IH; auto. }
  11: { cbn [len_value enc_value].
    destruct (negb (fd_presence f) && is_default_for t f (VMap kvs)); [cbn; auto|].
    destruct (kind_msg (fd_kind f)) as [e|]; [|exact I]. destruct (fd_is_map f); [|exact I].
    destruct (entry_key t e) as [kf|] eqn:Ek; [|exact I].
    destruct (entry_value t e) as [vf|] eqn:Ev; [|exact I].
    cbn in Hr. rewrite forallb_forall in Hr. rewrite Forall_forall in IH.
    apply agree_sum. intros [k v] Hx. cbn [fst snd].
    specialize (Hr _ Hx) as Hrx. cbn in Hrx. apply andb_true_iff in Hrx. destruct Hrx as [Hk Hv].
    pose proof (mk_agree kf k (entry_number _ _ _ Ht Ek) Hk) as A1.
    pose proof (IH _ Hx Hv vf (entry_vnumber _ _ _ Ht Ev)) as A2. cbn [snd] in A2.
    destruct (mk_len kf k) as [lk| | |], (mk_encode kf k) as [bk| | |]; cbn in A1;
      try contradiction; cbn [rbind]; [|exact I].
    destruct (len_value t v vf) as [lv| | |], (enc_value t v vf) as [bv| | |]; cbn in A2;
      try contradiction; cbn [rbind]; [|exact I].
    cbn [agree]. apply len_prefix_agree; [assumption|].
    rewrite app_length, Nat2N.inj_add. intros HL. rewrite A1, A2 by lia. reflexivity. }
  all: match goal with |- agree (len_value ?t ?v ?f) _ =>
         pose proof (scalar_agree (fd_kind f) v Hr) as A;
         destruct (negb (fd_presence f) && is_default_for t f v) eqn:E;
         cbn [len_value enc_value]; rewrite E; [cbn; auto|];
         destruct (len_scalar (fd_kind f) v) as [l|], (enc_scalar (fd_kind f) v) as [[w b']|];
         cbn in A; try contradiction; cbn [of_opt rbind fst snd agree]; [|exact I]
       end;
       rewrite app_length, Nat2N.inj_add, <- (key_len_correct _ w Hf);
       intros HL; rewrite A by lia; reflexivity.
Qed.

Lemma msg_agree t m : tables_ok t -> rust_ok_msg m = true -> agree (len_msg t m) (enc_msg t m).
Proof.
  intros Ht Hr. apply items_agree; [exact Ht| |exact Hr].
  apply Forall_forall. intros [n s] _. cbn. destruct s; cbn; auto.
  intros Hv f Hf. now apply value_agree.
Qed.

(** ** C03 *)

(** Every stored value is accepted by is_valid_for_field / _extension for its
    own descriptor, at every depth. *)
Fixpoint deep_valid (t : tables) (v : value) (f : fdl) {struct v} : bool :=
  is_valid_for t f v &&
  match v with
  | VMessage (DM d fs) =>
      forallb (fun kv =>
        match snd kv with
        | SVal v' =>
            (match get_field t d (fst kv) with Some g => deep_valid t v' g | None => true end)
            && (match get_ext t d (fst kv) with Some g => deep_valid t v' g | None => true end)
        | _ => true
        end) fs
  | VList vs => forallb (fun x => deep_valid t x f) vs
  | VMap kvs =>
      match kind_msg (fd_kind f) with
      | Some e => match entry_value t e with
                  | Some vf => forallb (fun kv => deep_valid t (snd kv) vf) kvs
                  | None => false
                  end
      | None => false
      end
  | _ => true
  end.
Definition deep_valid_slot (t : tables) (d : nat) (kv : N * slot value) : bool :=
  match snd kv with
  | SVal v' =>
      (match get_field t d (fst kv) with Some g => deep_valid t v' g | None => true end)
      && (match get_ext t d (fst kv) with Some g => deep_valid t v' g | None => true end)
  | _ => true
  end.
Definition deep_valid_msg (t : tables) (m : dynmsg) : bool :=
  forallb (deep_valid_slot t (dm_desc m)) (dm_fields m).

Definition fine {A} (r : res A) : Prop := exists a, r = Ok a.
Lemma fine_sum {A} (g : A -> res N) l : (forall x, In x l -> fine (g x)) -> fine (rsum g l).
Proof.
  induction l as [|a l IH]; intros H; [eexists; reflexivity|].
  destruct (H a (or_introl eq_refl)) as (n & E).
  destruct (IH (fun x Hx => H x (or_intror Hx))) as (n' & E').
  exists (n + n'). cbn [rsum]. rewrite E. cbn [rbind].
  change ((fix go (l : list A) : res N := _) l) with (rsum g l). rewrite E'. reflexivity.
Qed.

Lemma is_valid_len k v : is_msg_kind k = false -> is_valid v k = true -> exists n, len_scalar k v = Some n.
Proof. destruct v, k; cbn; intros H1 H2; try discriminate; eauto. Qed.
Lemma is_valid_packed k v : is_packable k = true -> is_valid v k = true -> exists n, len_packed k v = Some n.
Proof. destruct v, k; cbn; intros H1 H2; try discriminate; eauto. Qed.
Lemma mk_valid_fine f k : mk_valid k (fd_kind f) = true -> fine (mk_len f k).
Proof.
  intros H. unfold mk_len, mk_omitted.
  assert (E1 : exists dk, mk_default (fd_kind f) = Some dk)
    by (destruct k, (fd_kind f); cbn in *; try discriminate; eauto).
  assert (E2 : exists n, mk_len_scalar (fd_kind f) k = Some n)
    by (destruct k, (fd_kind f); cbn in *; try discriminate; eauto).
  destruct E1 as (dk & E1), E2 as (n & E2). rewrite E1, E2.
  destruct (fd_presence f); cbn [of_opt rbind]; [eexists; reflexivity|].
  destruct (mk_eqb k dk); eexists; reflexivity.
Qed.

Lemma items_fine t m :
  tables_ok t ->
  Forall (fun kv => slot_all (fun v => forall f, fdl_ok t f -> deep_valid t v f = true ->
     fine (len_value t v f)) (snd kv)) (dm_fields m) ->
  deep_valid_msg t m = true -> fine (len_msg t m).
Proof.
  intros Ht IH Hv. unfold len_msg. apply fine_sum. intros it Hit.
  destruct m as [d fs]. unfold deep_valid_msg in Hv. cbn [dm_desc dm_fields] in *.
  rewrite forallb_forall in Hv. rewrite Forall_forall in IH.
  pose proof (iter_items _ _ _ _ _ Ht Hit) as Hi.
  destruct it as [f v|f v|us]; cbn [len_item].
  - destruct Hi as (Hf & Hb & _). apply bt_get_In in Hb.
    pose proof (Hv _ Hb) as V. cbn in V. rewrite Hf in V. apply andb_true_iff in V.
    apply (IH _ Hb); [|apply V]. eapply get_field_ok; eassumption.
  - destruct Hi as (Hf & Hb & _).
    pose proof (Hv _ Hb) as V. cbn in V. rewrite Hf in V. apply andb_true_iff in V.
    apply (IH _ Hb); [|apply V]. now destruct (get_ext_inv _ _ _ _ Ht Hf) as (_ & _ & ?).
  - eexists; reflexivity.
Qed.

Lemma value_fine t : tables_ok t ->
  forall v f, fdl_ok t f -> deep_valid t v f = true -> fine (len_value t v f).
Proof.
  intros Ht v. induction v as [b|z|z|n|n|n|n|s|s|z|d fs IH|vs IH|kvs IH] using value_ind';
    intros f Hf Hv.
  11: { rewrite len_value_msg.
    destruct (negb (fd_presence f) && is_default_for t f (VMessage (DM d fs))); [eexists; reflexivity|].
    cbn [deep_valid] in Hv. apply andb_true_iff in Hv. destruct Hv as [Hv1 Hv2].
    cbn in Hv1. destruct (fd_kind f) eqn:Ek; try discriminate; cbn [kind_msg].
    all: destruct (items_fine t (DM d fs) Ht IH Hv2) as (l & El); rewrite El; cbn [rbind];
      destruct (fd_is_group f); eexists; reflexivity. }
  11: { cbn [len_value].
    destruct (negb (fd_presence f) && is_default_for t f (VList vs)); [eexists; reflexivity|].
    cbn [deep_valid] in Hv. apply andb_true_iff in Hv. destruct Hv as [Hv1 Hv2].
    cbn in Hv1. destruct (fd_is_list f) eqn:El; [|destruct (fd_kind f); discriminate].
    rewrite forallb_forall in Hv1, Hv2. rewrite Forall_forall in IH.
    destruct (fd_packed f) eqn:Ep.
    - destruct (fo_packed _ _ Hf Ep) as [_ Hpk]. rewrite Hpk. cbn [negb].
      assert (F : fine (rsum (fun x => of_opt (len_packed (fd_kind f) x)) vs)).
      { apply fine_sum. intros x Hx.
        destruct (is_valid_packed (fd_kind f) x Hpk (Hv1 _ Hx)) as (n & E). rewrite E. eexists; reflexivity. }
      destruct F as (l & E). rewrite E. cbn [rbind]. eexists; reflexivity.
    - apply fine_sum. intros x Hx. apply IH; auto. }
  11: { cbn [len_value].
    destruct (negb (fd_presence f) && is_default_for t f (VMap kvs)); [eexists; reflexivity|].
    cbn [deep_valid] in Hv. apply andb_true_iff in Hv. destruct Hv as [Hv1 Hv2].
    cbn in Hv1. destruct (kind_msg (fd_kind f)) as [e|]; [|discriminate].
    destruct (fd_is_map f); [|destruct (fd_kind f); discriminate].
    destruct (entry_key t e) as [kf|] eqn:Ek; [|discriminate].
    destruct (entry_value t e) as [vf|] eqn:Ev; [|discriminate].
    rewrite forallb_forall in Hv1, Hv2. rewrite Forall_forall in IH.
    apply fine_sum. intros [k v] Hx. cbn [fst snd].
    pose proof (Hv1 _ Hx) as V1. cbn in V1. apply andb_true_iff in V1. destruct V1 as [V1 _].
    destruct (mk_valid_fine kf k V1) as (lk & E1). rewrite E1. cbn [rbind].
    destruct (IH _ Hx vf) as (lv & E2); [eapply get_field_ok; eassumption|apply (Hv2 _ Hx)|].
    cbn [snd] in E2. rewrite E2. cbn [rbind]. eexists; reflexivity. }
  all: cbn [deep_valid] in Hv; apply andb_true_iff in Hv; destruct Hv as [Hv1 _]; cbn in Hv1;
    match goal with |- fine (len_value ?t ?v ?f) =>
      destruct (negb (fd_presence f) && is_default_for t f v) eqn:E;
      cbn [len_value]; rewrite E; [eexists; reflexivity|];
      destruct (is_valid_len (fd_kind f) v) as (l & El);
        [destruct (fd_kind f); try discriminate; reflexivity|exact Hv1|];
      rewrite El; cbn [of_opt rbind]; eexists; reflexivity
    end.
Qed.

Lemma msg_fine t m : tables_ok t -> deep_valid_msg t m = true -> fine (len_msg t m).
Proof.
  intros Ht Hv. apply items_fine; [exact Ht| |exact Hv].
  apply Forall_forall. intros [n s] _. cbn. destruct s; cbn; auto.
  intros f Hf. now apply value_fine.
Qed.

Lemma msg_encode_fine t m :
  tables_ok t -> deep_valid_msg t m = true -> rust_ok_msg m = true ->
  exists b l, enc_msg t m = Ok b /\ len_msg t m = Ok l /\
    (N.of_nat (length b) < two64 -> l = N.of_nat (length b)).
Proof.
  intros Ht Hv Hr. destruct (msg_fine t m Ht Hv) as (l & El).
  pose proof (msg_agree t m Ht Hr) as A. rewrite El in A.
  destruct (enc_msg t m) as [b| | |] eqn:E; cbn in A; try contradiction. eauto.
Qed.
