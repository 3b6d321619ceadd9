(** Messages of one schema read as messages of another: when the descriptors
    look alike the encodings are the same, so that transcode_from and
    transcode_to (dynamic/mod.rs:556-583) carry every field over. *)
From Verif Require Import Base BaseProofs Wire WireProofs Unknown UnknownProofs Value Descr Fields
  Codec DescrOk DescrProofs FieldsProofs LenProofs MergeProofs RoundProofs RoundMain RoundSpec RoundSame CompatSpec.

(** ** Encoding what the binary format keeps *)
Section EncNorm.
  Variable t : tables.
  Hypothesis Hw : wf t.
  Let Ht : tables_ok t := proj1 Hw.

  Definition item_norm (it : item value) : item value :=
    match it with
    | IField f v => IField f (norm t v f)
    | IExt f v => IExt f (norm t v f)
    | IUnk us => IUnk us
    end.

  Lemma iter_norm m : msg_ok t m ->
    fs_iter t (dm_desc m) false false (dm_fields (norm_msg t m)) =
    map item_norm (fs_iter t (dm_desc m) false false (dm_fields m)).
  Proof.
    intros Hm. pose proof (mo_sorted _ _ Hm) as Hs. unfold fs_iter, fs_iter_gen. rewrite map_app. f_equal.
    - unfold iter_declared. assert (G : forall f, In f (msg_fields t (dm_desc m)) ->
        get_field t (dm_desc m) (fd_number f) = Some f) by (intros f Hf; now apply msg_fields_get).
      revert G. generalize (msg_fields t (dm_desc m)) as l. induction l as [|f l IH]; intros G; [reflexivity|].
      cbn [flat_map]. rewrite map_app. f_equal; [|apply IH; intros g Hg; apply G; now right].
      unfold fs_get_value. rewrite norm_get by exact Hs.
      specialize (G f (or_introl eq_refl)).
      assert (Fd : find_desc t (dm_desc m) (fd_number f) = Some f) by (unfold find_desc; now rewrite G).
      destruct (bt_get (fd_number f) (dm_fields m)) as [[|v|us]|] eqn:Eb; try reflexivity.
      rewrite Fd. pose proof (mo_slots _ _ Hm _ _ Eb) as Ho. unfold ok_slot in Ho. cbn [fst snd] in Ho. rewrite Fd in Ho.
      destruct (fd_has t f v) eqn:Eh; [|reflexivity].
      rewrite (has_norm t f v (find_desc_ok _ _ _ _ Ht Fd) Ho), Eh. reflexivity.
    - unfold iter_rest. cbn [norm_msg dm_fields].
      assert (G : forall n s, In (n, s) (dm_fields m) -> ok_slot t (dm_desc m) (n, s) = true).
      { intros n s Hi. apply (mo_slots _ _ Hm). now apply bt_In_get. }
      revert G. generalize (dm_fields m) as l. induction l as [|[n s] l IH]; intros G; [reflexivity|].
      cbn [flat_map]. rewrite flat_map_app, map_app, IH by (intros n' s' Hi; apply G; now right). f_equal.
      specialize (G n s (or_introl eq_refl)). unfold ok_slot in G. cbn [fst snd] in G.
      unfold norm_slot. cbn [fst snd]. destruct s as [|v|us]; try reflexivity.
      destruct (get_ext t (dm_desc m) n) as [x|] eqn:Ex.
      + assert (Fd : find_desc t (dm_desc m) n = Some x).
        { unfold find_desc. now rewrite (field_ext_disjoint _ _ _ _ Hw Ex). }
        rewrite Fd in G |- *. destruct (fd_has t x v) eqn:Eh; [|reflexivity]. cbn [flat_map fst snd app].
        rewrite Ex, (has_norm t x v (find_desc_ok _ _ _ _ Ht Fd) G), Eh. reflexivity.
      + destruct (find_desc t (dm_desc m) n) as [g|]; [|reflexivity].
        destruct (fd_has t g v); [|reflexivity]. cbn [flat_map fst snd app]. now rewrite Ex.
  Qed.

  (** encoding and length do not notice [norm] *)
  Definition wire_eq (v : value) : Prop :=
    (forall f, ok_elem t v (fd_kind f) = true -> omitted t f (norm t v f) = omitted t f v ->
       enc_value t (norm t v f) f = enc_value t v f /\ len_value t (norm t v f) f = len_value t v f)
    /\ (forall f, fdl_ok t f -> ok_field t f v = true ->
       enc_value t (norm t v f) f = enc_value t v f /\ len_value t (norm t v f) f = len_value t v f).

  Lemma omitted_norm f v : fdl_ok t f -> ok_field t f v = true -> omitted t f (norm t v f) = omitted t f v.
  Proof.
    intros Hf Ho. pose proof (has_norm t f v Hf Ho) as H. rewrite !has_omitted in H.
    now destruct (omitted t f (norm t v f)), (omitted t f v).
  Qed.
  Lemma wire_eq_plain v : plain v = true ->
    (forall f, ok_elem t v (fd_kind f) = true -> omitted t f (norm t v f) = omitted t f v ->
       enc_value t (norm t v f) f = enc_value t v f /\ len_value t (norm t v f) f = len_value t v f) ->
    wire_eq v.
  Proof.
    intros Hp H. split; [exact H|]. intros f Hf Ho. apply H; [|now apply omitted_norm].
    rewrite ok_field_plain in Ho by exact Hp. rewrite !andb_true_iff in Ho. tauto.
  Qed.
  Lemma wire_eq_items m : msg_ok t m -> Forall (fun kv => slot_all wire_eq (snd kv)) (dm_fields m) ->
    enc_msg t (norm_msg t m) = enc_msg t m /\ len_msg t (norm_msg t m) = len_msg t m.
  Proof.
    intros Hm IH. unfold enc_msg, len_msg.
    change (dm_desc (norm_msg t m)) with (dm_desc m). rewrite (iter_norm m Hm), rcat_map, rsum_map.
    assert (A : forall it, In it (fs_iter t (dm_desc m) false false (dm_fields m)) ->
      enc_item t (item_norm it) = enc_item t it /\ len_item t (item_norm it) = len_item t it).
    { intros it Hi. pose proof (iter_items t _ _ _ it Ht Hi) as Q. rewrite Forall_forall in IH.
      destruct it as [f v|f v|us]; cbn [item_norm enc_item len_item]; [| |now split].
      - destruct Q as (Q1 & Q2 & _). assert (Fd : find_desc t (dm_desc m) (fd_number f) = Some f)
          by (unfold find_desc; now rewrite Q1).
        pose proof (mo_slots _ _ Hm _ _ Q2) as Ho. unfold ok_slot in Ho. cbn [fst snd] in Ho. rewrite Fd in Ho.
        apply (IH _ (bt_get_In _ _ _ Q2)); [|exact Ho]. exact (find_desc_ok _ _ _ _ Ht Fd).
      - destruct Q as (Q1 & Q2 & _). assert (Fd : find_desc t (dm_desc m) (fd_number f) = Some f)
          by (unfold find_desc; now rewrite (field_ext_disjoint _ _ _ _ Hw Q1)).
        assert (Eb : bt_get (fd_number f) (dm_fields m) = Some (SVal v))
          by (apply bt_In_get; [apply (mo_sorted _ _ Hm)|exact Q2]).
        pose proof (mo_slots _ _ Hm _ _ Eb) as Ho. unfold ok_slot in Ho. cbn [fst snd] in Ho. rewrite Fd in Ho.
        apply (IH _ Q2); [|exact Ho]. exact (find_desc_ok _ _ _ _ Ht Fd). }
    split; [apply rcat_ext|apply rsum_ext]; intros it Hi; apply A, Hi.
  Qed.

  Lemma wire_eq_all v : wire_eq v.
  Proof.
    induction v as [b|z|z|n|n|n|n|s|s|z|d fs IH|vs IH|kvs IH] using value_ind';
      try (apply wire_eq_plain; [reflexivity|]; intros f _ _; now split).
    - apply wire_eq_plain; [reflexivity|]. intros f Ho Hom. rewrite norm_message in *.
      rewrite ok_elem_msg in Ho. destruct (kind_msg (fd_kind f)) as [i|] eqn:Ek; [|discriminate].
      rewrite andb_true_iff, ok_msg_iff in Ho. destruct Ho as [_ Hm].
      destruct (wire_eq_items _ Hm IH) as [E1 E2].
      rewrite !enc_value_msg, !len_value_msg, E1, E2. unfold omitted in Hom. rewrite Hom. now split.
    - split; [intros f Ho; discriminate Ho|]. intros f Hf Ho. pose proof (omitted_norm f _ Hf Ho) as Hom.
      unfold omitted in Hom. cbn [norm] in *. cbn [enc_value len_value]. rewrite Hom.
      cbn [ok_field] in Ho. rewrite andb_true_iff, forallb_forall in Ho. destruct Ho as [Hl Ho].
      destruct (negb (fd_presence f) && is_default_for t f (VList vs)); [now split|]. rewrite Hl.
      rewrite Forall_forall in IH.
      destruct (fd_packed f) eqn:Ep.
      + destruct (fo_packed _ _ Hf Ep) as [_ Hpk]. rewrite Hpk. cbn [negb].
        assert (En : map (fun x => norm t x f) vs = vs).
        { rewrite <- (map_id vs) at 2. apply map_ext_in. intros x Hx. specialize (Ho _ Hx).
          apply norm_scalar. unfold fd_is_packable in Hpk. destruct x; try reflexivity; try discriminate Ho.
          rewrite ok_elem_msg in Ho. destruct (fd_kind f); try discriminate Hpk; discriminate Ho. }
        rewrite En. now split.
      + rewrite rcat_map, rsum_map. assert (A : forall x, In x vs ->
          enc_value t (norm t x f) f = enc_value t x f /\ len_value t (norm t x f) f = len_value t x f).
        { intros x Hx. specialize (Ho _ Hx). pose proof (ok_elem_plain _ _ _ Ho) as Hp.
          apply (proj1 (IH _ Hx)); [exact Ho|]. unfold omitted, is_default_for. rewrite (fd_default_list t f Hl).
          f_equal. destruct x; try reflexivity; try discriminate Hp. rewrite norm_message. reflexivity. }
        split; [apply rcat_ext|apply rsum_ext]; intros x Hx; apply A, Hx.
    - split; [intros f Ho; discriminate Ho|]. intros f Hf Ho. pose proof (omitted_norm f _ Hf Ho) as Hom.
      cbn [ok_field] in Ho. destruct (kind_msg (fd_kind f)) as [e|] eqn:Ek; [|discriminate].
      destruct (fd_is_map f) eqn:Em; [|discriminate].
      destruct (entry_key t e) as [kf|] eqn:E1; [|discriminate].
      destruct (entry_value t e) as [vf|] eqn:E2; [|discriminate].
      rewrite andb_true_iff, forallb_forall in Ho. destruct Ho as [_ Ho]. rewrite Forall_forall in IH.
      unfold omitted in Hom. cbn [norm] in *. rewrite Ek, E2 in *. cbn [enc_value len_value]. rewrite Hom.
      destruct (negb (fd_presence f) && is_default_for t f (VMap kvs)); [now split|]. rewrite Ek, Em, E1, E2.
      rewrite rcat_map, rsum_map. cbn [fst snd].
      assert (Hvf : fdl_ok t vf) by exact (get_field_ok _ _ _ _ Ht E2).
      assert (A : forall kv, In kv kvs ->
          let v' := if omitted t vf (snd kv) then fd_default_value t vf else norm t (snd kv) vf in
          enc_value t v' vf = enc_value t (snd kv) vf /\ len_value t v' vf = len_value t (snd kv) vf).
      { intros kv Hk. specialize (Ho _ Hk). rewrite andb_true_iff in Ho. destruct Ho as [_ Ho].
        cbv zeta. destruct (omitted t vf (snd kv)) eqn:Eo.
        - assert (Ed : omitted t vf (fd_default_value t vf) = true).
          { unfold omitted in *. rewrite andb_true_iff in *. destruct Eo as [Eo1 Eo2]. split; [exact Eo1|].
            unfold is_default_for in *.
            destruct (snd kv) as [b|z|z|n|n|n|n|s|s|z|m|vs|kvs'], (fd_default_value t vf) eqn:Edv;
              cbn [value_eqb] in Eo2 |- *; try discriminate Eo2; try discriminate Ho.
            all: rewrite ?Bool.eqb_reflx, ?Z.eqb_refl, ?N.eqb_refl, ?bytes_eqb_refl; try reflexivity.
            - unfold f32_eqb in *. rewrite !andb_true_iff in Eo2. destruct Eo2 as [[_ E] _]. rewrite E, N.eqb_refl. reflexivity.
            - unfold f64_eqb in *. rewrite !andb_true_iff in Eo2. destruct Eo2 as [[_ E] _]. rewrite E, N.eqb_refl. reflexivity.
            - exfalso. rewrite ok_elem_msg in Ho. destruct (kind_msg (fd_kind vf)) eqn:Ekv; [|discriminate Ho].
              assert (Hmk : is_msg_kind (fd_kind vf) = true) by (unfold is_msg_kind; now rewrite Ekv).
              destruct (is_repeated vf) eqn:Er.
              + unfold fd_default_value in Edv. unfold is_repeated in Er. unfold fd_is_list in Edv. rewrite Er in Edv.
                cbn [andb] in Edv. destruct (fd_is_map vf); discriminate Edv.
              + rewrite (fo_msg _ _ Hvf Hmk Er) in Eo1. discriminate Eo1. }
          unfold omitted in Eo, Ed.
          assert (Z1 : forall v, negb (fd_presence vf) && is_default_for t vf v = true ->
            enc_value t v vf = Ok [] /\ len_value t v vf = Ok 0).
          { intros v Hv. destruct v; cbn [enc_value len_value]; rewrite Hv; now split. }
          destruct (Z1 _ Eo) as [-> ->]. exact (Z1 _ Ed).
        - destruct (IH _ Hk) as [IH1 _]. apply IH1; [exact Ho|]. rewrite Eo.
          destruct (omitted t vf (norm t (snd kv) vf)) eqn:Eo'; [|reflexivity]. exfalso.
          destruct (snd kv) as [b|z|z|n|n|n|n|s|s|z|m|vs|kvs'] eqn:Esn;
            try discriminate Ho; try (cbn [norm] in Eo'; congruence).
          rewrite norm_message in Eo'. unfold omitted in Eo, Eo'.
          rewrite ok_elem_msg in Ho. destruct (kind_msg (fd_kind vf)) eqn:Ekv; [|discriminate Ho].
          assert (Hmk : is_msg_kind (fd_kind vf) = true) by (unfold is_msg_kind; now rewrite Ekv).
          destruct (is_repeated vf) eqn:Er.
          + unfold is_default_for, fd_default_value, fd_is_list in Eo'. unfold is_repeated in Er. rewrite Er in Eo'.
            cbn [andb] in Eo'. destruct (fd_is_map vf); cbn in Eo'; rewrite andb_false_r in Eo'; discriminate Eo'.
          + rewrite (fo_msg _ _ Hvf Hmk Er) in Eo'. discriminate Eo'. }
      split; [apply rcat_ext|apply rsum_ext]; intros kv Hk; destruct (A kv Hk) as [A1 A2]; cbv zeta in A1, A2;
        rewrite ?A1, ?A2; reflexivity.
  Qed.

  Theorem enc_norm m : ok_msg t m = true ->
    enc_msg t (norm_msg t m) = enc_msg t m /\ len_msg t (norm_msg t m) = len_msg t m.
  Proof.
    intros Ho. apply wire_eq_items; [now apply ok_msg_iff|].
    apply Forall_forall. intros [k [|v|us]] _; cbn; auto. apply wire_eq_all.
  Qed.
End EncNorm.

(** ** Replacing descriptors *)
Lemma ren_message rho m : ren rho (VMessage m) = VMessage (ren_msg rho m).
Proof. destruct m as [d fs]. reflexivity. Qed.
Lemma ren_scalar rho v : scalar v = true -> ren rho v = v.
Proof. destruct v; intros H; try discriminate H; reflexivity. Qed.
Lemma ren_plain rho v : plain (ren rho v) = plain v.
Proof. destruct v as [| | | | | | | | | |[d fs]| |]; reflexivity. Qed.
Lemma ren_get rho fs k : bt_get k (map (fun kv => (fst kv, ren_slot rho (snd kv))) fs) =
  option_map (ren_slot rho) (bt_get k fs).
Proof.
  induction fs as [|[n s] fs IH]; [reflexivity|]. cbn [map bt_get fst snd].
  destruct (k =? n); [reflexivity|exact IH].
Qed.
Lemma ren_sorted rho fs : bt_sorted fs -> bt_sorted (map (fun kv => (fst kv, ren_slot rho (snd kv))) fs).
Proof.
  induction fs as [|[n s] fs IH]; [trivial|]. cbn [map bt_sorted fst snd]. intros [H1 H2]. split; [|auto].
  apply Forall_forall. intros x Hx. apply in_map_iff in Hx. destruct Hx as ([k s'] & <- & Hx).
  rewrite Forall_forall in H1. exact (H1 _ Hx).
Qed.
Lemma ren_depth rho v : depth (ren rho v) = depth v.
Proof.
  induction v as [b|z|z|n|n|n|n|s|s|z|d fs IH|vs IH|kvs IH] using value_ind'; try reflexivity.
  - cbn [ren depth]. do 2 f_equal. rewrite map_map. apply map_ext_in. intros [k s] Hi.
    rewrite Forall_forall in IH. specialize (IH _ Hi). destruct s; try reflexivity. exact IH.
  - cbn [ren depth]. f_equal. rewrite map_map. apply map_ext_in. intros x Hx. rewrite Forall_forall in IH. now apply IH.
  - cbn [ren depth]. f_equal. rewrite map_map. apply map_ext_in. intros x Hx. rewrite Forall_forall in IH.
    exact (IH _ Hx).
Qed.
Lemma ren_msg_depth rho m : msg_depth (ren_msg rho m) = msg_depth m.
Proof.
  pose proof (ren_depth rho (VMessage m)) as H. rewrite ren_message, !depth_msg in H. lia.
Qed.
Lemma ren_keys rho kvs : keys_nodupb (map (fun kv => (fst kv, ren rho (snd kv))) kvs) = keys_nodupb kvs.
Proof.
  induction kvs as [|[k v] kvs IH]; [reflexivity|]. cbn [map keys_nodupb fst snd]. rewrite IH. f_equal. f_equal.
  clear IH. induction kvs as [|[k' v'] kvs IH]; [reflexivity|]. cbn [map existsb fst snd]. now rewrite IH.
Qed.

Lemma Forall2_in_l {A B} (R : A -> B -> Prop) l l' a : Forall2 R l l' -> In a l -> exists b, In b l' /\ R a b.
Proof.
  induction 1 as [|x y l l' Hxy H IH]; [intros []|]. intros [<-|Hi]; [exists y; cbn; auto|].
  destruct (IH Hi) as (b & Hb & Hr). exists b. cbn. auto.
Qed.
Lemma Forall2_in_r {A B} (R : A -> B -> Prop) l l' b : Forall2 R l l' -> In b l' -> exists a, In a l /\ R a b.
Proof.
  induction 1 as [|x y l l' Hxy H IH]; [intros []|]. intros [<-|Hi]; [exists x; cbn; auto|].
  destruct (IH Hi) as (a & Ha & Hr). exists a. cbn. auto.
Qed.

Section Ren.
  Variables (t t' : tables) (D : nat -> bool) (rho : nat -> nat).
  Hypothesis Hw : wf t.
  Hypothesis Hw' : wf t'.
  Hypothesis Hc : compatible t t' D rho.
  Let Ht : tables_ok t := proj1 Hw.
  Let Ht' : tables_ok t' := proj1 Hw'.
  Notation klike := (kind_like t t' D rho).
  Notation flike := (field_like t t' D rho).

  Lemma like_field d n : D d = true -> opt_like t t' D rho (get_field t d n) (get_field t' (rho d) n).
  Proof.
    intros Hd. destruct (Hc d Hd) as (_ & HF & _). unfold opt_like.
    destruct (get_field t d n) as [f|] eqn:E.
    - pose proof (get_field_number _ _ _ _ Ht E) as En.
      assert (Hi : In f (msg_fields t d)) by (apply msg_fields_get; [exact Ht|now rewrite En]).
      destruct (Forall2_in_l _ _ _ _ HF Hi) as (f' & Hi' & Hl).
      apply msg_fields_get in Hi'; [|exact Ht']. rewrite <- (fl_number _ _ _ _ _ _ Hl), En in Hi'. rewrite Hi'. exact Hl.
    - destruct (get_field t' (rho d) n) as [f'|] eqn:E'; [|exact I].
      pose proof (get_field_number _ _ _ _ Ht' E') as En.
      assert (Hi : In f' (msg_fields t' (rho d))) by (apply msg_fields_get; [exact Ht'|now rewrite En]).
      destruct (Forall2_in_r _ _ _ _ HF Hi) as (f & Hi' & Hl).
      apply msg_fields_get in Hi'; [|exact Ht]. rewrite (fl_number _ _ _ _ _ _ Hl), En in Hi'. congruence.
  Qed.
  Lemma like_find d n : D d = true -> opt_like t t' D rho (find_desc t d n) (find_desc t' (rho d) n).
  Proof.
    intros Hd. pose proof (like_field d n Hd) as H. destruct (Hc d Hd) as (_ & _ & HE). specialize (HE n).
    unfold find_desc, opt_like in *. destruct (get_field t d n), (get_field t' (rho d) n); auto; contradiction.
  Qed.
  Lemma like_find_some d n f : D d = true -> find_desc t d n = Some f ->
    exists f', find_desc t' (rho d) n = Some f' /\ flike f f'.
  Proof.
    intros Hd E. pose proof (like_find d n Hd) as H. rewrite E in H. unfold opt_like in H.
    destruct (find_desc t' (rho d) n) as [f'|]; [eauto|contradiction].
  Qed.
  Lemma like_find_none d n : D d = true -> find_desc t d n = None -> find_desc t' (rho d) n = None.
  Proof.
    intros Hd E. pose proof (like_find d n Hd) as H. rewrite E in H. unfold opt_like in H.
    destruct (find_desc t' (rho d) n) as [f'|]; [contradiction|reflexivity].
  Qed.
  Lemma like_field_some d n f : D d = true -> get_field t d n = Some f ->
    exists f', get_field t' (rho d) n = Some f' /\ flike f f'.
  Proof.
    intros Hd E. pose proof (like_field d n Hd) as H. rewrite E in H. unfold opt_like in H.
    destruct (get_field t' (rho d) n) as [f'|]; [eauto|contradiction].
  Qed.

  Lemma like_list f f' : flike f f' -> fd_is_list f' = fd_is_list f.
  Proof. intros H. unfold fd_is_list. now rewrite (fl_card _ _ _ _ _ _ H), (fl_map _ _ _ _ _ _ H). Qed.
  Lemma like_msg k k' : klike k k' -> kind_msg k' = option_map rho (kind_msg k).
  Proof. destruct k, k'; cbn; intros H; try discriminate H; try contradiction; try reflexivity; destruct H as [_ ->]; reflexivity. Qed.
  Lemma like_msg_in k k' i : klike k k' -> kind_msg k = Some i -> D i = true /\ kind_msg k' = Some (rho i).
  Proof.
    intros H E. split; [|rewrite (like_msg _ _ H), E; reflexivity].
    destruct k, k'; cbn in *; try discriminate E; try contradiction; injection E as ->; apply H.
  Qed.
  Ltac klike_tac := let H := fresh in intros H; match type of H with kind_like _ _ _ _ ?k ?k' =>
    destruct k, k'; cbn in H; try discriminate H; try contradiction end; try reflexivity.
  Lemma like_enc k k' v : klike k k' -> enc_scalar k' v = enc_scalar k v.
  Proof. klike_tac; destruct v; reflexivity. Qed.
  Lemma like_len k k' v : klike k k' -> len_scalar k' v = len_scalar k v.
  Proof. klike_tac; destruct v; reflexivity. Qed.
  Lemma like_encp k k' v : klike k k' -> enc_packed k' v = enc_packed k v.
  Proof. klike_tac; destruct v; reflexivity. Qed.
  Lemma like_lenp k k' v : klike k k' -> len_packed k' v = len_packed k v.
  Proof. klike_tac; destruct v; reflexivity. Qed.
  Lemma like_packable f f' : flike f f' -> fd_is_packable f' = fd_is_packable f.
  Proof. intros H. unfold fd_is_packable. pose proof (fl_kind _ _ _ _ _ _ H) as K. revert K. klike_tac. Qed.
  Lemma like_group f f' : flike f f' -> fd_is_group f' = fd_is_group f.
  Proof. intros H. unfold fd_is_group. pose proof (fl_kind _ _ _ _ _ _ H) as K. revert K. klike_tac. Qed.
  Lemma like_sc k k' v : klike k k' -> sc_okb k' v = sc_okb k v.
  Proof. klike_tac; destruct v; reflexivity. Qed.
  Lemma like_mk k k' v : klike k k' -> mk_okb k' v = mk_okb k v.
  Proof. klike_tac; destruct v; reflexivity. Qed.
  Lemma like_mk_default k k' : klike k k' -> mk_default k' = mk_default k.
  Proof. klike_tac. Qed.
  Lemma like_mk_enc k k' v : klike k k' -> mk_enc_scalar k' v = mk_enc_scalar k v.
  Proof. klike_tac; destruct v; reflexivity. Qed.
  Lemma like_mk_len k k' v : klike k k' -> mk_len_scalar k' v = mk_len_scalar k v.
  Proof. klike_tac; destruct v; reflexivity. Qed.
  Lemma like_key f f' k : flike f f' -> mk_encode f' k = mk_encode f k /\ mk_len f' k = mk_len f k.
  Proof.
    intros H. unfold mk_encode, mk_len, mk_omitted.
    rewrite <- (fl_presence _ _ _ _ _ _ H), <- (fl_number _ _ _ _ _ _ H), (like_mk_default _ _ (fl_kind _ _ _ _ _ _ H)),
      (like_mk_enc _ _ k (fl_kind _ _ _ _ _ _ H)), (like_mk_len _ _ k (fl_kind _ _ _ _ _ _ H)). now split.
  Qed.

  Lemma like_default f f' : fdl_ok t f -> flike f f' -> fd_default_value t' f' = ren rho (fd_default_value t f).
  Proof.
    intros Hf H. unfold fd_default_value. rewrite (like_list _ _ H), <- (fl_map _ _ _ _ _ _ H), <- (fl_default _ _ _ _ _ _ H).
    destruct (fd_is_list f); [reflexivity|]. destruct (fd_is_map f); [reflexivity|].
    destruct (fd_default f) as [v|] eqn:Ed.
    - symmetry. apply ren_scalar. pose proof (fo_default _ _ Hf _ Ed) as Hs. destruct v; try reflexivity; discriminate Hs.
    - pose proof (fl_kind _ _ _ _ _ _ H) as K. destruct (fd_kind f), (fd_kind f'); cbn in K |- *; try discriminate K;
        try contradiction; try reflexivity.
      all: first [now rewrite K | unfold new_msg; destruct K as [_ ->]; reflexivity].
  Qed.
  Lemma like_omitted f f' v : fdl_ok t f -> flike f f' -> omitted t' f' (ren rho v) = omitted t f v.
  Proof.
    intros Hf H. unfold omitted. rewrite <- (fl_presence _ _ _ _ _ _ H).
    destruct (fd_presence f) eqn:Ep; [reflexivity|]. cbn [negb andb]. unfold is_default_for.
    rewrite (like_default _ _ Hf H). unfold fd_default_value.
    destruct (fd_is_list f) eqn:El.
    { destruct v as [| | | | | | | | | |[d fs]|vs|kvs]; try reflexivity. destruct vs; reflexivity. }
    destruct (fd_is_map f) eqn:Em.
    { destruct v as [| | | | | | | | | |[d fs]|vs|kvs]; try reflexivity. destruct kvs; reflexivity. }
    destruct (is_msg_kind (fd_kind f)) eqn:Ek.
    { rewrite (fo_msg _ _ Hf Ek (not_repeated _ El Em)) in Ep. discriminate Ep. }
    assert (Hs : forall x, scalar x = true -> value_eqb (ren rho v) x = value_eqb v x).
    { intros x Hx. destruct x; try discriminate Hx; destruct v as [| | | | | | | | | |[d fs]|vs|kvs]; reflexivity. }
    assert (Hsc : scalar (match fd_default f with Some v0 => v0 | None => kind_default t (fd_kind f) end) = true).
    { destruct (fd_default f) as [x|] eqn:Ed.
      - pose proof (fo_default _ _ Hf _ Ed) as Hx. destruct x; try reflexivity; discriminate Hx.
      - destruct (fd_kind f); try reflexivity; discriminate Ek. }
    rewrite (ren_scalar _ _ Hsc). apply Hs, Hsc.
  Qed.
  Lemma like_has f f' v : fdl_ok t f -> flike f f' -> fd_has t' f' (ren rho v) = fd_has t f v.
  Proof. intros Hf H. rewrite !has_omitted. now rewrite (like_omitted f f'). Qed.

  (** *** Validity *)
  Definition ren_ok (v : value) : Prop :=
    (forall k k', klike k k' -> ok_elem t v k = true -> ok_elem t' (ren rho v) k' = true)
    /\ (forall f f', flike f f' -> ok_field t f v = true -> ok_field t' f' (ren rho v) = true).
  Lemma ren_ok_msg m : D (dm_desc m) = true -> Forall (fun kv => slot_all ren_ok (snd kv)) (dm_fields m) ->
    msg_ok t m -> msg_ok t' (ren_msg rho m).
  Proof.
    intros Hd IH Hm. destruct (Hc _ Hd) as (Hlt & _ & _). constructor; cbn [ren_msg dm_desc dm_fields].
    - exact Hlt.
    - apply ren_sorted, (mo_sorted _ _ Hm).
    - intros n g v nums k w Hn Hg Ho Hk Hne. rewrite ren_get in *.
      destruct (bt_get n (dm_fields m)) as [[|v0|us]|] eqn:En; try discriminate Hn.
      pose proof (like_field _ n Hd) as L. rewrite Hg in L. unfold opt_like in L.
      destruct (get_field t (dm_desc m) n) as [g0|] eqn:Eg; [|contradiction].
      rewrite <- (fl_oneof _ _ _ _ _ _ L) in Ho.
      destruct (bt_get k (dm_fields m)) as [[|w0|us]|] eqn:Ekk; cbn; try discriminate.
      exfalso. exact (mo_oneof _ _ Hm n g0 v0 nums k w0 En Eg Ho Hk Hne Ekk).
    - intros n s Hs. rewrite ren_get in Hs. destruct (bt_get n (dm_fields m)) as [s0|] eqn:En; [|discriminate Hs].
      injection Hs as <-. pose proof (mo_slots _ _ Hm _ _ En) as Ho. unfold ok_slot in *. cbn [fst snd] in *.
      destruct s0 as [|v0|us]; cbn [ren_slot]; [reflexivity| |].
      + destruct (find_desc t (dm_desc m) n) as [f|] eqn:Ef; [|discriminate Ho].
        destruct (like_find_some _ _ _ Hd Ef) as (f' & -> & Hl).
        rewrite Forall_forall in IH. apply (proj2 (IH _ (bt_get_In _ _ _ En)) _ _ Hl Ho).
      + destruct (find_desc t (dm_desc m) n) as [f|] eqn:Ef; [discriminate Ho|].
        now rewrite (like_find_none _ _ Hd Ef).
  Qed.
  Lemma ren_ok_plain v : plain v = true ->
    (forall k k', klike k k' -> ok_elem t v k = true -> ok_elem t' (ren rho v) k' = true) -> ren_ok v.
  Proof.
    intros Hp H. split; [exact H|]. intros f f' Hl Ho. rewrite ok_field_plain in * by (rewrite ?ren_plain; exact Hp).
    rewrite (like_list _ _ Hl), <- (fl_map _ _ _ _ _ _ Hl). rewrite !andb_true_iff in *.
    destruct Ho as [Ho1 Ho2]. split; [exact Ho1|]. exact (H _ _ (fl_kind _ _ _ _ _ _ Hl) Ho2).
  Qed.
  Lemma ren_ok_all v : ren_ok v.
  Proof.
    induction v as [b|z|z|n|n|n|n|s|s|z|d fs IH|vs IH|kvs IH] using value_ind';
      try (apply ren_ok_plain; [reflexivity|]; intros k k' Hk Ho; cbn [ren ok_elem] in *; rewrite (like_sc _ _ _ Hk); exact Ho).
    - apply ren_ok_plain; [reflexivity|]. intros k k' Hk Ho. rewrite ren_message. rewrite ok_elem_msg in *.
      destruct (kind_msg k) as [i|] eqn:Ek; [|discriminate Ho]. destruct (like_msg_in _ _ _ Hk Ek) as [Hi ->].
      rewrite andb_true_iff, ok_msg_iff in *. destruct Ho as [Hd Hm]. apply Nat.eqb_eq in Hd. cbn [dm_desc] in Hd. subst i.
      split; [apply Nat.eqb_refl|]. now apply ren_ok_msg.
    - split; [intros k k' _ Ho; discriminate Ho|]. intros f f' Hl Ho. cbn [ren ok_field] in *.
      rewrite (like_list _ _ Hl). rewrite andb_true_iff, forallb_forall in *. destruct Ho as [Ho1 Ho2]. split; [exact Ho1|].
      intros x Hx. apply in_map_iff in Hx. destruct Hx as (y & <- & Hy). rewrite Forall_forall in IH.
      exact (proj1 (IH _ Hy) _ _ (fl_kind _ _ _ _ _ _ Hl) (Ho2 _ Hy)).
    - split; [intros k k' _ Ho; discriminate Ho|]. intros f f' Hl Ho. cbn [ren ok_field] in *.
      destruct (kind_msg (fd_kind f)) as [e|] eqn:Ek; [|discriminate Ho].
      destruct (like_msg_in _ _ _ (fl_kind _ _ _ _ _ _ Hl) Ek) as [He ->]. rewrite <- (fl_map _ _ _ _ _ _ Hl).
      destruct (fd_is_map f); [|discriminate Ho]. unfold entry_key, entry_value in *.
      destruct (get_field t e MAP_KEY_NUMBER) as [kf|] eqn:E1; [|discriminate Ho].
      destruct (get_field t e MAP_VALUE_NUMBER) as [vf|] eqn:E2; [|discriminate Ho].
      destruct (like_field_some _ _ _ He E1) as (kf' & -> & Lk). destruct (like_field_some _ _ _ He E2) as (vf' & -> & Lv).
      rewrite ren_keys. rewrite andb_true_iff, forallb_forall in *. destruct Ho as [Ho1 Ho2]. split; [exact Ho1|].
      intros x Hx. apply in_map_iff in Hx. destruct Hx as ([k v] & <- & Hy). cbn [fst snd]. specialize (Ho2 _ Hy).
      cbn [fst snd] in Ho2. rewrite andb_true_iff in *. rewrite (like_mk _ _ k (fl_kind _ _ _ _ _ _ Lk)).
      split; [tauto|]. rewrite Forall_forall in IH. apply (proj1 (IH _ Hy) _ _ (fl_kind _ _ _ _ _ _ Lv)). tauto.
  Qed.
  Lemma ren_msg_ok m : D (dm_desc m) = true -> ok_msg t m = true -> ok_msg t' (ren_msg rho m) = true.
  Proof.
    intros Hd. rewrite !ok_msg_iff. apply ren_ok_msg; [exact Hd|]. apply Forall_forall.
    intros [k [|v|us]] _; cbn; auto. apply ren_ok_all.
  Qed.

  (** *** Encoding *)
  Definition item_like (it it' : item value) : Prop :=
    match it, it' with
    | IField f v, IField f' v' | IExt f v, IExt f' v' =>
        flike f f' /\ v' = ren rho v
    | IUnk us, IUnk us' => us = us'
    | _, _ => False
    end.
  Lemma Forall2_flat {A B C E} (R : A -> B -> Prop) (S : C -> E -> Prop) g h l l' :
    Forall2 R l l' -> (forall a b, In a l -> R a b -> Forall2 S (g a) (h b)) -> Forall2 S (flat_map g l) (flat_map h l').
  Proof.
    induction 1 as [|a b l l' Hab H IH]; intros G; [constructor|]. cbn [flat_map].
    apply Forall2_app; [apply G; cbn; auto|]. apply IH. intros a' b' Hi. apply G. now right.
  Qed.
  Lemma iter_like d fs : D d = true -> bt_sorted fs ->
    Forall2 item_like (fs_iter t d false false fs)
      (fs_iter t' (rho d) false false (map (fun kv => (fst kv, ren_slot rho (snd kv))) fs)).
  Proof.
    intros Hd Hs. destruct (Hc d Hd) as (_ & HF & HE). unfold fs_iter, fs_iter_gen. apply Forall2_app.
    - unfold iter_declared. eapply Forall2_flat; [exact HF|]. intros f f' Hi Hl.
      apply msg_fields_get in Hi; [|exact Ht]. pose proof (get_field_ok _ _ _ _ Ht Hi) as Hf.
      unfold fs_get_value. rewrite ren_get, <- (fl_number _ _ _ _ _ _ Hl).
      destruct (bt_get (fd_number f) fs) as [[|v|us]|]; cbn [option_map ren_slot andb]; try constructor.
      rewrite (like_has _ _ v Hf Hl). destruct (fd_has t f v); constructor; [|constructor]. now split.
    - unfold iter_rest. clear Hs. induction fs as [|[n s] fs IH]; [constructor|]. cbn [map flat_map fst snd].
      apply Forall2_app; [|exact IH]. destruct s as [|v|us]; cbn [ren_slot]; [constructor| |constructor; [reflexivity|constructor]].
      specialize (HE n). unfold opt_like in HE.
      destruct (get_ext t d n) as [f|] eqn:Ef, (get_ext t' (rho d) n) as [f'|] eqn:Ef'; try contradiction; [|constructor].
      destruct (get_ext_inv _ _ _ _ Ht Ef) as (_ & _ & Hf). rewrite (like_has _ _ v Hf HE).
      destruct (fd_has t f v); constructor; [|constructor]. now split.
  Qed.

  Definition ren_wire (v : value) : Prop :=
    forall f f', fdl_ok t f -> flike f f' ->
      (ok_elem t v (fd_kind f) = true \/ ok_field t f v = true) ->
      enc_value t' (ren rho v) f' = enc_value t v f /\ len_value t' (ren rho v) f' = len_value t v f.
  Lemma rcat_like {A B} (R : A -> B -> Prop) (g : A -> res bytes) (h : B -> res bytes) l l' :
    Forall2 R l l' -> (forall a b, In a l -> R a b -> h b = g a) -> rcat h l' = rcat g l.
  Proof.
    induction 1 as [|a b l l' Hab H IH]; intros G; [reflexivity|]. cbn.
    rewrite (G a b) by (cbn; auto). rewrite IH; [reflexivity|]. intros a' b' Hi. apply G. now right.
  Qed.
  Lemma rsum_like {A B} (R : A -> B -> Prop) (g : A -> res N) (h : B -> res N) l l' :
    Forall2 R l l' -> (forall a b, In a l -> R a b -> h b = g a) -> rsum h l' = rsum g l.
  Proof.
    induction 1 as [|a b l l' Hab H IH]; intros G; [reflexivity|]. cbn.
    rewrite (G a b) by (cbn; auto). rewrite IH; [reflexivity|]. intros a' b' Hi. apply G. now right.
  Qed.
  Lemma ren_wire_items m : D (dm_desc m) = true -> msg_ok t m ->
    Forall (fun kv => slot_all ren_wire (snd kv)) (dm_fields m) ->
    enc_msg t' (ren_msg rho m) = enc_msg t m /\ len_msg t' (ren_msg rho m) = len_msg t m.
  Proof.
    intros Hd Hm IH. unfold enc_msg, len_msg. cbn [ren_msg dm_desc dm_fields].
    pose proof (iter_like _ _ Hd (mo_sorted _ _ Hm)) as L.
    assert (A : forall it it', In it (fs_iter t (dm_desc m) false false (dm_fields m)) -> item_like it it' ->
      enc_item t' it' = enc_item t it /\ len_item t' it' = len_item t it).
    { intros it it' Hi Hl. pose proof (iter_items t _ _ _ it Ht Hi) as Q. rewrite Forall_forall in IH.
      destruct it as [f v|f v|us], it' as [f' v'|f' v'|us']; cbn [item_like] in Hl; try contradiction.
      - destruct Q as (Q1 & Q2 & _). assert (Fd : find_desc t (dm_desc m) (fd_number f) = Some f)
          by (unfold find_desc; now rewrite Q1).
        pose proof (mo_slots _ _ Hm _ _ Q2) as Ho. unfold ok_slot in Ho. cbn [fst snd] in Ho. rewrite Fd in Ho.
        destruct Hl as [Hl ->].
        apply (IH _ (bt_get_In _ _ _ Q2)); [exact (find_desc_ok _ _ _ _ Ht Fd)|exact Hl|auto].
      - destruct Q as (Q1 & Q2 & _). assert (Fd : find_desc t (dm_desc m) (fd_number f) = Some f)
          by (unfold find_desc; now rewrite (field_ext_disjoint _ _ _ _ Hw Q1)).
        assert (Eb : bt_get (fd_number f) (dm_fields m) = Some (SVal v))
          by (apply bt_In_get; [apply (mo_sorted _ _ Hm)|exact Q2]).
        pose proof (mo_slots _ _ Hm _ _ Eb) as Ho. unfold ok_slot in Ho. cbn [fst snd] in Ho. rewrite Fd in Ho.
        destruct Hl as [Hl ->].
        apply (IH _ Q2); [exact (find_desc_ok _ _ _ _ Ht Fd)|exact Hl|auto].
      - subst us'. now split. }
    split; [eapply rcat_like|eapply rsum_like]; try exact L; intros it it' Hi Hl; apply (A it it' Hi Hl).
  Qed.
  Lemma ren_wire_all v : ren_wire v.
  Proof.
    induction v as [b|z|z|n|n|n|n|s|s|z|d fs IH|vs IH|kvs IH] using value_ind'; intros f f' Hf Hl Ho;
      pose proof (fl_kind _ _ _ _ _ _ Hl) as Hk.
    11: { rewrite ren_message. rewrite !enc_value_msg, !len_value_msg.
      pose proof (like_omitted f f' (VMessage (DM d fs)) Hf Hl) as Hom. rewrite ren_message in Hom. unfold omitted in Hom.
      rewrite Hom. rewrite <- (fl_number _ _ _ _ _ _ Hl), (like_group _ _ Hl).
      assert (Ho' : ok_elem t (VMessage (DM d fs)) (fd_kind f) = true).
      { destruct Ho as [Ho|Ho]; [exact Ho|]. rewrite ok_field_plain in Ho by reflexivity. rewrite !andb_true_iff in Ho. tauto. }
      rewrite ok_elem_msg in Ho'. destruct (kind_msg (fd_kind f)) as [i|] eqn:Ek; [|discriminate Ho'].
      destruct (like_msg_in _ _ _ Hk Ek) as [Hi ->]. rewrite andb_true_iff, ok_msg_iff in Ho'. destruct Ho' as [Hd Hm].
      apply Nat.eqb_eq in Hd. cbn [dm_desc] in Hd. subst i. destruct (ren_wire_items (DM d fs) Hi Hm IH) as [-> ->]. now split. }
    all: pose proof (fun v => like_omitted f f' v Hf Hl) as Hom.
    11: { specialize (Hom (VList vs)). cbn [ren] in *. unfold omitted in Hom. cbn [enc_value len_value]. rewrite Hom.
      destruct Ho as [Ho|Ho]; [discriminate Ho|]. cbn [ok_field] in Ho. rewrite andb_true_iff, forallb_forall in Ho.
      destruct Ho as [El Ho]. rewrite (like_list _ _ Hl), El, <- (fl_packed _ _ _ _ _ _ Hl), (like_packable _ _ Hl),
        <- (fl_number _ _ _ _ _ _ Hl). rewrite Forall_forall in IH.
      destruct (negb (fd_presence f) && is_default_for t f (VList vs)); [now split|].
      destruct (fd_packed f) eqn:Ep.
      - destruct (fo_packed _ _ Hf Ep) as [_ Hpk]. rewrite Hpk. cbn [negb].
        assert (En : map (ren rho) vs = vs).
        { rewrite <- (map_id vs) at 2. apply map_ext_in. intros x Hx. specialize (Ho _ Hx).
          apply ren_scalar. unfold fd_is_packable in Hpk. destruct x; try reflexivity; try discriminate Ho.
          rewrite ok_elem_msg in Ho. destruct (fd_kind f); try discriminate Hpk; discriminate Ho. }
        rewrite En.
        rewrite (rsum_ext (fun x => of_opt (len_packed (fd_kind f') x)) (fun x => of_opt (len_packed (fd_kind f) x)))
          by (intros x _; now rewrite (like_lenp _ _ x Hk)).
        rewrite (rcat_ext (fun x => of_opt (enc_packed (fd_kind f') x)) (fun x => of_opt (enc_packed (fd_kind f) x)))
          by (intros x _; now rewrite (like_encp _ _ x Hk)). now split.
      - rewrite rcat_map, rsum_map.
        split; [apply rcat_ext|apply rsum_ext]; intros x Hx; apply (IH _ Hx f f' Hf Hl); left; apply Ho, Hx. }
    11: { specialize (Hom (VMap kvs)). cbn [ren] in *. unfold omitted in Hom. cbn [enc_value len_value]. rewrite Hom.
      destruct Ho as [Ho|Ho]; [discriminate Ho|]. cbn [ok_field] in Ho.
      destruct (kind_msg (fd_kind f)) as [e|] eqn:Ek; [|discriminate Ho].
      destruct (like_msg_in _ _ _ Hk Ek) as [He ->]. rewrite <- (fl_map _ _ _ _ _ _ Hl), <- (fl_number _ _ _ _ _ _ Hl).
      destruct (negb (fd_presence f) && is_default_for t f (VMap kvs)); [now split|].
      destruct (fd_is_map f); [|discriminate Ho]. unfold entry_key, entry_value in *.
      destruct (get_field t e MAP_KEY_NUMBER) as [kf|] eqn:E1; [|discriminate Ho].
      destruct (get_field t e MAP_VALUE_NUMBER) as [vf|] eqn:E2; [|discriminate Ho].
      destruct (like_field_some _ _ _ He E1) as (kf' & -> & Lk). destruct (like_field_some _ _ _ He E2) as (vf' & -> & Lv).
      rewrite andb_true_iff, forallb_forall in Ho. destruct Ho as [_ Ho]. rewrite Forall_forall in IH.
      rewrite rcat_map, rsum_map. cbn [fst snd].
      assert (A : forall kv, In kv kvs -> enc_value t' (ren rho (snd kv)) vf' = enc_value t (snd kv) vf /\
        len_value t' (ren rho (snd kv)) vf' = len_value t (snd kv) vf).
      { intros kv Hi. apply (IH _ Hi vf vf' (get_field_ok _ _ _ _ Ht E2) Lv). left. specialize (Ho _ Hi).
        rewrite andb_true_iff in Ho. tauto. }
      split; [apply rcat_ext|apply rsum_ext]; intros kv Hi; destruct (A kv Hi) as [A1 A2];
        destruct (like_key _ _ (fst kv) Lk) as [A3 A4]; rewrite ?A1, ?A2, ?A3, ?A4; reflexivity. }
    all: match goal with |- enc_value _ (ren _ ?v) _ = _ /\ _ => specialize (Hom v) end; cbn [ren] in *;
      unfold omitted in Hom; cbn [enc_value len_value]; rewrite Hom, <- (fl_number _ _ _ _ _ _ Hl),
      (like_enc _ _ _ Hk), (like_len _ _ _ Hk); now split.
  Qed.

  (** *** What the binary format keeps *)
  Definition ren_norm (v : value) : Prop :=
    forall f f', fdl_ok t f -> flike f f' ->
      (ok_elem t v (fd_kind f) = true \/ ok_field t f v = true) ->
      norm t' (ren rho v) f' = ren rho (norm t v f).
  Lemma ren_norm_items m : D (dm_desc m) = true -> msg_ok t m ->
    Forall (fun kv => slot_all ren_norm (snd kv)) (dm_fields m) ->
    norm_msg t' (ren_msg rho m) = ren_msg rho (norm_msg t m).
  Proof.
    intros Hd Hm IH. unfold norm_msg, ren_msg. cbn [dm_desc dm_fields]. f_equal.
    assert (G : forall n s, In (n, s) (dm_fields m) -> ok_slot t (dm_desc m) (n, s) = true).
    { intros n s Hi. apply (mo_slots _ _ Hm). apply bt_In_get; [apply (mo_sorted _ _ Hm)|exact Hi]. }
    revert G IH. generalize (dm_fields m) as l. induction l as [|[n s] l IHl]; intros G IH; [reflexivity|].
    cbn [map flat_map]. rewrite map_app. inversion IH as [|x y IH1 IH2]; subst.
    rewrite IHl by (try exact IH2; intros n' s' Hi; apply G; now right). f_equal.
    specialize (G n s (or_introl eq_refl)). unfold ok_slot in G. cbn [fst snd slot_all] in *.
    unfold norm_slot. cbn [fst snd]. destruct s as [|v|us]; cbn [ren_slot]; try reflexivity.
    destruct (find_desc t (dm_desc m) n) as [f|] eqn:Ef; [|discriminate G].
    destruct (like_find_some _ _ _ Hd Ef) as (f' & -> & Hl). pose proof (find_desc_ok _ _ _ _ Ht Ef) as Hf.
    rewrite (like_has _ _ v Hf Hl). destruct (fd_has t f v); [|reflexivity]. cbn [map fst snd ren_slot].
    rewrite (IH1 f f' Hf Hl (or_intror G)). reflexivity.
  Qed.
  Lemma ren_norm_all v : ren_norm v.
  Proof.
    induction v as [b|z|z|n|n|n|n|s|s|z|d fs IH|vs IH|kvs IH] using value_ind'; intros f f' Hf Hl Ho;
      pose proof (fl_kind _ _ _ _ _ _ Hl) as Hk; try reflexivity.
    - rewrite ren_message, !norm_message, ren_message. f_equal.
      assert (Ho' : ok_elem t (VMessage (DM d fs)) (fd_kind f) = true).
      { destruct Ho as [Ho|Ho]; [exact Ho|]. rewrite ok_field_plain in Ho by reflexivity. rewrite !andb_true_iff in Ho. tauto. }
      rewrite ok_elem_msg in Ho'. destruct (kind_msg (fd_kind f)) as [i|] eqn:Ek; [|discriminate Ho'].
      destruct (like_msg_in _ _ _ Hk Ek) as [Hi _]. rewrite andb_true_iff, ok_msg_iff in Ho'. destruct Ho' as [Hd Hm].
      apply Nat.eqb_eq in Hd. cbn [dm_desc] in Hd. subst i. now apply ren_norm_items.
    - destruct Ho as [Ho|Ho]; [discriminate Ho|]. cbn [ok_field] in Ho. rewrite andb_true_iff, forallb_forall in Ho.
      destruct Ho as [El Ho]. cbn [ren norm]. f_equal. rewrite !map_map. apply map_ext_in. intros x Hx.
      rewrite Forall_forall in IH. apply (IH _ Hx f f' Hf Hl). left. apply Ho, Hx.
    - destruct Ho as [Ho|Ho]; [discriminate Ho|]. cbn [ok_field] in Ho. cbn [ren norm].
      destruct (kind_msg (fd_kind f)) as [e|] eqn:Ek; [|discriminate Ho].
      destruct (like_msg_in _ _ _ Hk Ek) as [He ->]. destruct (fd_is_map f); [|discriminate Ho].
      unfold entry_key, entry_value in *.
      destruct (get_field t e MAP_KEY_NUMBER) as [kf|] eqn:E1; [|discriminate Ho].
      destruct (get_field t e MAP_VALUE_NUMBER) as [vf|] eqn:E2; [|discriminate Ho].
      destruct (like_field_some _ _ _ He E2) as (vf' & -> & Lv). pose proof (get_field_ok _ _ _ _ Ht E2) as Hvf.
      rewrite andb_true_iff, forallb_forall in Ho. destruct Ho as [_ Ho]. rewrite Forall_forall in IH.
      cbn [ren]. f_equal. rewrite !map_map. apply map_ext_in. intros kv Hi. cbn [fst snd]. f_equal.
      rewrite (like_omitted _ _ _ Hvf Lv), (like_default _ _ Hvf Lv). destruct (omitted t vf (snd kv)); [reflexivity|].
      apply (IH _ Hi _ _ Hvf Lv). left. specialize (Ho _ Hi). rewrite andb_true_iff in Ho. tauto.
  Qed.

  Theorem ren_encode m : D (dm_desc m) = true -> ok_msg t m = true ->
    enc_msg t' (ren_msg rho m) = enc_msg t m.
  Proof.
    intros Hd Hm. rewrite ok_msg_iff in Hm. apply ren_wire_items; [exact Hd|exact Hm|].
    apply Forall_forall. intros [k [|v|us]] _; cbn; auto. apply ren_wire_all.
  Qed.
  Theorem ren_normal m : D (dm_desc m) = true -> ok_msg t m = true ->
    norm_msg t' (ren_msg rho m) = ren_msg rho (norm_msg t m).
  Proof.
    intros Hd Hm. rewrite ok_msg_iff in Hm. apply ren_norm_items; [exact Hd|exact Hm|].
    apply Forall_forall. intros [k [|v|us]] _; cbn; auto. apply ren_norm_all.
  Qed.

  (** decoding the bytes of a message under the other schema *)
  Theorem transcoded m b : D (dm_desc m) = true -> ok_msg t m = true -> (msg_depth m <= 100)%nat ->
    enc_msg t m = Ok b -> N.of_nat (length b) < two64 ->
    msg_decode t' (rho (dm_desc m)) b = Ok (ren_msg rho (norm_msg t m)) /\
    enc_msg t' (ren_msg rho (norm_msg t m)) = Ok b.
  Proof.
    intros Hd Hm Hdp He Hb. pose proof (ren_msg_ok m Hd Hm) as Hm'. pose proof (ren_encode m Hd Hm) as Ee.
    rewrite He in Ee. rewrite <- (ren_normal m Hd Hm). split.
    - apply (decode_encode_norm t' Hw' (ren_msg rho m) b Hm'); [rewrite ren_msg_depth; exact Hdp|exact Ee|exact Hb].
    - rewrite (proj1 (enc_norm t' Hw' _ Hm')). exact Ee.
  Qed.
End Ren.
