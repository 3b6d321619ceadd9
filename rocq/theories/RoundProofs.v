(** Proof of the binary round trip. *)
From Verif Require Import Base BaseProofs Wire WireProofs LoopProofs Unknown UnknownProofs
  Value Descr Fields Codec DescrOk DescrProofs FieldsProofs LenProofs MergeProofs RoundSpec.

(** ** Valid values are encodable *)

Lemma mk_ok_rust k key : mk_okb k key = true -> mk_rust key = true.
Proof. destruct key, k; cbn; intros H; try discriminate; try reflexivity; exact H. Qed.

Lemma mk_ok_valid k key : mk_okb k key = true -> mk_valid key k = true.
Proof. destruct key, k; cbn; intros H; try discriminate; reflexivity. Qed.

Lemma sc_rust k v : sc_okb k v = true -> rust_ok v = true.
Proof. destruct v, k; cbn; intros H; try discriminate; try reflexivity; exact H. Qed.

Lemma forallb_impl_in {A} (p q : A -> bool) l :
  (forall x, In x l -> p x = true -> q x = true) -> forallb p l = true -> forallb q l = true.
Proof. rewrite !forallb_forall. intros H Hp x Hx. apply H; auto. Qed.

Lemma ok_rust t v :
  (forall k, ok_elem t v k = true -> rust_ok v = true) /\
  (forall f, ok_field t f v = true -> rust_ok v = true).
Proof.
  induction v as [b|z|z|n|n|n|n|s|s|z|d fs IH|vs IH|kvs IH] using value_ind'.
  11: { assert (A : forall k, ok_elem t (VMessage (DM d fs)) k = true -> rust_ok (VMessage (DM d fs)) = true).
    { intros k H. rewrite ok_elem_msg in H. destruct (kind_msg k); [|discriminate].
      apply andb_true_iff in H. destruct H as [_ H]. unfold ok_msg in H.
      rewrite !andb_true_iff in H. destruct H as [_ H]. cbn [dm_desc dm_fields] in H.
      cbn [rust_ok]. revert H. apply forallb_impl_in. intros [k0 s] Hin. cbn.
      rewrite Forall_forall in IH. specialize (IH _ Hin). destruct s; cbn in *; auto.
      - destruct (find_desc t d k0); [|discriminate]. apply IH.
      - destruct (find_desc t d k0); [discriminate|]. rewrite !andb_true_iff. intros [_ H].
        revert H. apply forallb_impl_in. intros u _. rewrite andb_true_iff. tauto. }
    split; [exact A|]. intros f H. rewrite ok_field_plain in H by reflexivity.
    rewrite !andb_true_iff in H. eapply A. apply H. }
  11: { split; [discriminate|]. intros f H. cbn [ok_field] in H. apply andb_true_iff in H.
    destruct H as [_ H]. cbn [rust_ok]. revert H. apply forallb_impl_in. intros x Hx.
    rewrite Forall_forall in IH. apply (IH _ Hx). }
  11: { split; [discriminate|]. intros f H. cbn [ok_field] in H.
    destruct (kind_msg (fd_kind f)); [|discriminate]. destruct (fd_is_map f); [|discriminate].
    destruct (entry_key t n) as [kf|]; [|discriminate].
    destruct (entry_value t n) as [vf|]; [|discriminate].
    apply andb_true_iff in H. destruct H as [_ H]. cbn [rust_ok]. revert H. apply forallb_impl_in.
    intros x Hx. rewrite !andb_true_iff. intros [H1 H2]. split; [eapply mk_ok_rust; exact H1|].
    rewrite Forall_forall in IH. exact (proj1 (IH _ Hx) _ H2). }
  all: split; [intros k H; eapply sc_rust; exact H|];
    intros f H; rewrite ok_field_plain in H by reflexivity; rewrite !andb_true_iff in H;
    eapply sc_rust; apply H.
Qed.

Lemma sc_valid_for t f v : sc_okb (fd_kind f) v = true -> is_valid_for t f v = true.
Proof.
  intros H. destruct v; cbn [is_valid_for]; try (eapply sc_okb_valid; exact H);
    destruct (fd_kind f); discriminate.
Qed.

Lemma ok_elem_valid t v k : ok_elem t v k = true -> is_valid v k = true.
Proof.
  destruct v; try (intros H; apply sc_okb_valid; exact H); try discriminate.
  rewrite ok_elem_msg. destruct k; cbn; try discriminate; reflexivity.
Qed.

Lemma ok_deep t v : wf t ->
  (forall f, ok_elem t v (fd_kind f) = true -> deep_valid t v f = true) /\
  (forall f, ok_field t f v = true -> deep_valid t v f = true).
Proof.
  intros Hwf. pose proof (proj1 Hwf) as Ht.
  induction v as [b|z|z|n|n|n|n|s|s|z|d fs IH|vs IH|kvs IH] using value_ind'.
  11: { assert (A : forall f, ok_elem t (VMessage (DM d fs)) (fd_kind f) = true ->
                             deep_valid t (VMessage (DM d fs)) f = true).
    { intros f H. cbn [deep_valid is_valid_for]. rewrite (ok_elem_valid _ _ _ H). cbn [andb].
      rewrite ok_elem_msg in H. destruct (kind_msg (fd_kind f)); [|discriminate].
      apply andb_true_iff in H. destruct H as [_ H]. unfold ok_msg in H.
      rewrite !andb_true_iff in H. destruct H as [_ H]. cbn [dm_desc dm_fields] in H.
      revert H. apply forallb_impl_in. intros [k0 s] Hin. cbn.
      rewrite Forall_forall in IH. specialize (IH _ Hin). destruct s as [|v'|us]; cbn in *; auto.
      intros H. destruct IH as [_ IH]. unfold find_desc in H.
      destruct (get_field t d k0) as [g|] eqn:Eg.
      - rewrite (IH _ H). cbn [andb]. destruct (get_ext t d k0) as [x|] eqn:Ex; [|reflexivity].
        rewrite (field_ext_disjoint _ _ _ _ Hwf Ex) in Eg. discriminate.
      - cbn [andb]. destruct (get_ext t d k0) as [x|]; [|reflexivity]. apply IH, H. }
    split; [exact A|]. intros f H. rewrite ok_field_plain in H by reflexivity.
    rewrite !andb_true_iff in H. apply A, H. }
  11: { split; [discriminate|]. intros f H. cbn [ok_field] in H. apply andb_true_iff in H.
    destruct H as [HL H]. cbn [deep_valid is_valid_for]. rewrite HL. apply andb_true_iff. split.
    - revert H. apply forallb_impl_in. intros x Hx. apply ok_elem_valid.
    - revert H. apply forallb_impl_in. intros x Hx.
      rewrite Forall_forall in IH. apply (IH _ Hx). }
  11: { split; [discriminate|]. intros f H. cbn [ok_field] in H. cbn [deep_valid is_valid_for].
    destruct (kind_msg (fd_kind f)) as [e|]; [|discriminate]. destruct (fd_is_map f); [|discriminate].
    destruct (entry_key t e) as [kf|] eqn:Ek; [|discriminate].
    destruct (entry_value t e) as [vf|] eqn:Ev; [|discriminate].
    apply andb_true_iff in H. destruct H as [_ H]. apply andb_true_iff. split.
    - revert H. apply forallb_impl_in.
      intros x Hx. rewrite !andb_true_iff. intros [H1 H2]. split; [eapply mk_ok_valid; exact H1|].
      pose proof (ok_elem_plain _ _ _ H2) as Hp.
      pose proof (ok_elem_valid _ _ _ H2) as Hv. destruct (snd x); try discriminate; exact Hv.
    - revert H. apply forallb_impl_in. intros x Hx. rewrite andb_true_iff. intros [_ H2].
      rewrite Forall_forall in IH. exact (proj1 (IH _ Hx) _ H2). }
  all: split; [intros f H; cbn [deep_valid]; rewrite sc_valid_for by exact H; reflexivity|];
    intros f H; rewrite ok_field_plain in H by reflexivity; rewrite !andb_true_iff in H;
    cbn [deep_valid]; rewrite sc_valid_for by apply H; reflexivity.
Qed.

Lemma ok_msg_encodes t m : wf t -> ok_msg t m = true ->
  rust_ok_msg m = true /\ deep_valid_msg t m = true.
Proof.
  intros Hwf H. assert (E : ok_elem t (VMessage m) (KMessage (dm_desc m)) = true).
  { rewrite ok_elem_msg. cbn. rewrite Nat.eqb_refl. exact H. }
  split; [exact (proj1 (ok_rust t _) _ E)|].
  pose (f := {| fd_number := 1; fd_kind := KMessage (dm_desc m); fd_card := Optional;
    fd_packed := false; fd_presence := true; fd_oneof := None; fd_default := None;
    fd_is_map := false; fd_name := []; fd_json := []; fd_full := [] |}).
  pose proof (proj1 (ok_deep t (VMessage m) Hwf) f E) as D. destruct m as [d fs].
  cbn [deep_valid] in D. apply andb_true_iff in D. exact (proj2 D).
Qed.

(** ** Scalars *)

Lemma rd_varint_enc n g rest : n < two64 -> rd_varint (encode_varint n ++ rest) g = Ok (g n, rest).
Proof. intros H. unfold rd_varint. rewrite decode_encode_varint by exact H. reflexivity. Qed.
Lemma rd_le4_enc n g rest : n < two32 -> rd_le 4 (le_encode 4 n ++ rest) g = Ok (g n, rest).
Proof.
  intros H. unfold rd_le. change 4 with (N.of_nat 4).
  rewrite le_decode_encode by exact H. reflexivity.
Qed.
Lemma rd_le8_enc n g rest : n < two64 -> rd_le 8 (le_encode 8 n ++ rest) g = Ok (g n, rest).
Proof.
  intros H. unfold rd_le. change 8 with (N.of_nat 8).
  rewrite le_decode_encode by exact H. reflexivity.
Qed.

Lemma write_delimited_len s : (length s <= length (write_delimited s))%nat.
Proof. unfold write_delimited. rewrite app_length. lia. Qed.

Lemma some_inj {A} (a c : A) : Some a = Some c -> a = c.
Proof. intros H. injection H as ->. reflexivity. Qed.
Lemma some_pair_inj {A B} (a c : A) (b d : B) : Some (a, b) = Some (c, d) -> a = c /\ b = d.
Proof. intros H. injection H as -> ->. split; reflexivity. Qed.

Lemma scalar_round k v w bs v0 rest :
  sc_okb k v = true -> sc_okb k v0 = true -> enc_scalar k v = Some (w, bs) ->
  N.of_nat (length bs) < two64 ->
  w = kind_wt k /\ merge_scalar k v0 w (bs ++ rest) = Some (DOk v rest).
Proof.
  intros Hv Hv0 He HL.
  destruct v, k; try discriminate He; cbn [enc_scalar] in He;
    apply some_pair_inj in He; destruct He as [<- <-]; (split; [reflexivity|]);
    destruct v0; try discriminate Hv0; cbn in Hv; cbn [merge_scalar]; unfold rd;
    change (wt_eqb WVarint WVarint) with true; change (wt_eqb W32 W32) with true;
    change (wt_eqb W64 W64) with true; change (wt_eqb WLen WLen) with true; cbv iota.
  all: lazymatch goal with
    | |- context [rd_varint (encode_varint (zu64 ?z) ++ _)] =>
        rewrite rd_varint_enc by (apply zu64_bound)
    | |- context [rd_varint (encode_varint (zigzag32 ?z) ++ _)] =>
        rewrite rd_varint_enc by (apply zz32_64)
    | |- context [rd_varint (encode_varint (zigzag64 ?z) ++ _)] =>
        rewrite rd_varint_enc by (apply zigzag64_bound)
    | |- context [rd_varint (encode_varint (if _ then _ else _) ++ _)] =>
        rewrite rd_varint_enc by (apply bool_small)
    | |- context [rd_varint (encode_varint ?n ++ _)] =>
        rewrite rd_varint_enc by (first [exact (u64_ok_64 _ Hv) | exact (u32_ok_64 _ Hv)])
    | |- context [rd_le 4 (le_encode 4 (zu32 _) ++ _)] => rewrite rd_le4_enc by (apply zu32_bound)
    | |- context [rd_le 4 (le_encode 4 _ ++ _)] => rewrite rd_le4_enc by (apply N.ltb_lt; exact Hv)
    | |- context [rd_le 8 (le_encode 8 (zu64 _) ++ _)] => rewrite rd_le8_enc by (apply zu64_bound)
    | |- context [rd_le 8 (le_encode 8 _ ++ _)] => rewrite rd_le8_enc by (apply N.ltb_lt; exact Hv)
    | _ => idtac
    end; cbn [dlift].
  all: lazymatch goal with
    | |- context [si32 (zu64 _)] => rewrite si32_zu64 by exact Hv; reflexivity
    | |- context [si32 (zu32 _)] => rewrite si32_zu32 by exact Hv; reflexivity
    | |- context [si64 (zu64 _)] => rewrite si64_zu64 by exact Hv; reflexivity
    | |- context [unzigzag32 _] => rewrite unzigzag32_zigzag32 by exact Hv; reflexivity
    | |- context [unzigzag64 _] => rewrite unzigzag64_zigzag64 by exact Hv; reflexivity
    | |- context [u32 _] => rewrite u32_small by exact Hv; reflexivity
    | |- context [read_delimited] => idtac
    | |- context [rd_string] => idtac
    | |- context [negb] => idtac
    | _ => reflexivity
    end.
  - destruct b; reflexivity.
  - unfold rd_string. rewrite read_write_delimited.
    + cbn [rbind]. apply andb_true_iff in Hv. destruct Hv as [_ Hv]. rewrite Hv. reflexivity.
    + pose proof (write_delimited_len s). lia.
  - rewrite read_write_delimited; [reflexivity|]. pose proof (write_delimited_len s). lia.
Qed.

Lemma packed_scalar k v bs : enc_packed k v = Some bs -> enc_scalar k v = Some (kind_wt k, bs).
Proof.
  destruct k, v; cbn [enc_packed enc_scalar kind_wt]; intros H; try discriminate H;
    apply some_inj in H; rewrite <- H; reflexivity.
Qed.

Lemma packed_nonempty k v bs : enc_packed k v = Some bs -> (1 <= length bs)%nat.
Proof.
  destruct k, v; cbn [enc_packed]; intros H; try discriminate H; apply some_inj in H;
    subst bs; rewrite ?le_encode_length; try lia; apply encode_varint_nonempty.
Qed.

Lemma enc_scalar_kind k v w bs : enc_scalar k v = Some (w, bs) -> w = kind_wt k /\ w <> WEnd.
Proof. destruct v, k; cbn [enc_scalar kind_wt]; intros H; try discriminate H;
  apply some_pair_inj in H; destruct H as [<- _]; split; congruence. Qed.

Lemma mk_enc_value k key : mk_enc_scalar k key = enc_scalar k (mk_value key).
Proof. destruct key, k; reflexivity. Qed.

Lemma mk_round k key w bs k0 rest :
  mk_okb k key = true -> mk_okb k k0 = true -> mk_enc_scalar k key = Some (w, bs) ->
  N.of_nat (length bs) < two64 ->
  mk_merge k k0 w (bs ++ rest) = DOk key rest.
Proof.
  intros Hk H0 He HL. rewrite mk_enc_value in He. rewrite mk_value_ok in Hk, H0.
  unfold mk_merge. destruct (scalar_round _ _ _ _ _ rest Hk H0 He HL) as [_ ->].
  destruct key; reflexivity.
Qed.

(** ** The message a round trip produces *)

Section Norm.
  Variable t : tables.

  Definition omitted (f : fdl) (v : value) : bool := negb (fd_presence f) && is_default_for t f v.

  Fixpoint norm (v : value) (f : fdl) {struct v} : value :=
    match v with
    | VMessage (DM d fs) =>
        VMessage (DM d (flat_map (fun kv =>
          match snd kv with
          | Taken => []
          | SUnk us => [(fst kv, SUnk us)]
          | SVal v' =>
              match find_desc t d (fst kv) with
              | Some g => if fd_has t g v' then [(fst kv, SVal (norm v' g))] else []
              | None => []
              end
          end) fs))
    | VList vs => VList (map (fun x => norm x f) vs)
    | VMap kvs =>
        match kind_msg (fd_kind f) with
        | Some e =>
            match entry_value t e with
            | Some vf => VMap (map (fun kv => (fst kv,
                if omitted vf (snd kv) then fd_default_value t vf else norm (snd kv) vf)) kvs)
            | None => VMap kvs
            end
        | None => VMap kvs
        end
    | _ => v
    end.

  Definition norm_slot (d : nat) (kv : N * slot value) : list (N * slot value) :=
    match snd kv with
    | Taken => []
    | SUnk us => [(fst kv, SUnk us)]
    | SVal v' =>
        match find_desc t d (fst kv) with
        | Some g => if fd_has t g v' then [(fst kv, SVal (norm v' g))] else []
        | None => []
        end
    end.
  Definition norm_msg (m : dynmsg) : dynmsg :=
    DM (dm_desc m) (flat_map (norm_slot (dm_desc m)) (dm_fields m)).

  Lemma norm_message m f : norm (VMessage m) f = VMessage (norm_msg m).
  Proof. destruct m as [d fs]. reflexivity. Qed.

  Lemma flat_sorted {A B} (g : N * A -> list (N * B)) l :
    (forall kv x, In x (g kv) -> fst x = fst kv) -> (forall kv, (length (g kv) <= 1)%nat) ->
    bt_sorted l -> bt_sorted (flat_map g l).
  Proof.
    intros Hg Hl. induction l as [|[k v] l IH]; cbn [flat_map]; [trivial|].
    cbn. intros [H1 H2]. specialize (IH H2). pose proof (Hl (k, v)) as L. pose proof (Hg (k, v)) as G.
    destruct (g (k, v)) as [|[k' v'] [|? ?]]; cbn in *; auto; [|lia].
    specialize (G _ (or_introl eq_refl)). cbn in G. subst k'. split; [|exact IH].
    apply Forall_forall. intros x Hx. apply in_flat_map in Hx. destruct Hx as (kv & Hkv & Hx).
    rewrite (Hg _ _ Hx). rewrite Forall_forall in H1. apply (H1 _ Hkv).
  Qed.

  Lemma flat_get {A B} (g : N * A -> list (N * B)) l k :
    (forall kv x, In x (g kv) -> fst x = fst kv) ->
    bt_sorted l ->
    bt_get k (flat_map g l) = match bt_get k l with Some s => bt_get k (g (k, s)) | None => None end.
  Proof.
    intros Hg. induction l as [|[k' v] l IH]; cbn [flat_map bt_get]; [reflexivity|].
    intros [H1 H2]. specialize (IH H2).
    assert (App : forall (a b : list (N * B)), bt_get k (a ++ b) =
              match bt_get k a with Some x => Some x | None => bt_get k b end).
    { induction a as [|[ka va] a IHa]; cbn; intros b; [reflexivity|]. destruct (k =? ka); auto. }
    rewrite App. destruct (k =? k') eqn:E.
    - apply N.eqb_eq in E. subst k'. destruct (bt_get k (g (k, v))) eqn:Eg; [reflexivity|].
      rewrite IH. destruct (bt_get k l) eqn:El; [|reflexivity].
      apply bt_get_In in El. rewrite Forall_forall in H1. specialize (H1 _ El). cbn in H1. lia.
    - destruct (bt_get k (g (k', v))) eqn:Eg; [|exact IH].
      apply bt_get_In in Eg. apply Hg in Eg. cbn in Eg. lia.
  Qed.

  Lemma norm_slot_key d kv x : In x (norm_slot d kv) -> fst x = fst kv.
  Proof.
    unfold norm_slot. destruct (snd kv); [contradiction| |].
    - destruct (find_desc t d (fst kv)) as [g|]; [|contradiction].
      destruct (fd_has t g v); [|contradiction]. intros [<-|[]]. reflexivity.
    - intros [<-|[]]. reflexivity.
  Qed.
  Lemma norm_slot_len d kv : (length (norm_slot d kv) <= 1)%nat.
  Proof.
    unfold norm_slot. destruct (snd kv); cbn; [lia| |lia].
    destruct (find_desc t d (fst kv)) as [g|]; cbn; [|lia]. destruct (fd_has t g v); cbn; lia.
  Qed.
  Lemma norm_sorted m : bt_sorted (dm_fields m) -> bt_sorted (dm_fields (norm_msg m)).
  Proof.
    intros H. cbn. apply flat_sorted; [apply norm_slot_key|apply norm_slot_len|exact H].
  Qed.
  Lemma norm_get m k : bt_sorted (dm_fields m) ->
    bt_get k (dm_fields (norm_msg m)) =
    match bt_get k (dm_fields m) with
    | Some (SVal v) =>
        match find_desc t (dm_desc m) k with
        | Some g => if fd_has t g v then Some (SVal (norm v g)) else None
        | None => None
        end
    | Some (SUnk us) => Some (SUnk us)
    | _ => None
    end.
  Proof.
    intros H. cbn [norm_msg dm_fields]. rewrite flat_get by (try exact H; apply norm_slot_key).
    destruct (bt_get k (dm_fields m)) as [s|]; [|reflexivity].
    unfold norm_slot. cbn [fst snd]. destruct s as [|v|us]; cbn [bt_get]; rewrite ?N.eqb_refl; try reflexivity.
    destruct (find_desc t (dm_desc m) k); [|reflexivity].
    destruct (fd_has t f v); cbn [bt_get]; rewrite ?N.eqb_refl; reflexivity.
  Qed.
End Norm.
