(** A bound on the length of an encoding that can be read off a message. *)
From Coq Require Import Permutation.
From Verif Require Import Base BaseProofs Wire WireProofs Unknown UnknownProofs Value Descr Fields
  Codec DescrOk DescrProofs FieldsProofs LenProofs EncBytes MergeProofs RoundSpec RoundProofs RoundMain RoundSame
  CompatSpec Compat JsonWkt.
Open Scope list_scope.
Open Scope N_scope.

Definition sumN {A} (h : A -> N) (l : list A) : N := fold_right N.add 0 (map h l).

(** more than the number of bytes each part can take in the binary format *)
Definition key_bulk (k : mapkey) : N := match k with MKString s => 100 + N.of_nat (length s) | _ => 100 end.
Fixpoint bulk (v : value) : N :=
  match v with
  | VMessage (DM _ fs) =>
      30 + sumN (fun kv => match snd kv with
                           | SVal v' => bulk v'
                           | SUnk us => N.of_nat (length (ufs_encode us))
                           | Taken => 0
                           end) fs
  | VList vs => sumN bulk vs
  | VMap kvs => sumN (fun kv => key_bulk (fst kv) + bulk (snd kv)) kvs
  | VString s | VBytes s => 30 + N.of_nat (length s)
  | _ => 30
  end.
Definition bulk_slot (s : slot value) : N :=
  match s with SVal v' => bulk v' | SUnk us => N.of_nat (length (ufs_encode us)) | Taken => 0 end.
Definition bulk_msg (m : dynmsg) : N := sumN (fun kv => bulk_slot (snd kv)) (dm_fields m).
Lemma bulk_message m : bulk (VMessage m) = 30 + bulk_msg m.
Proof. destruct m. reflexivity. Qed.

Lemma sumN_app {A} (h : A -> N) a b : sumN h (a ++ b) = sumN h a + sumN h b.
Proof. unfold sumN. induction a as [|x a IH]; cbn [app map fold_right]; [reflexivity|]. rewrite IH. lia. Qed.
Lemma sumN_cons {A} (h : A -> N) x l : sumN h (x :: l) = h x + sumN h l.
Proof. reflexivity. Qed.
Lemma sumN_le {A} (h g : A -> N) l : (forall x, In x l -> h x <= g x) -> sumN h l <= sumN g l.
Proof.
  induction l as [|x l IH]; intros H; [apply N.le_refl|]. rewrite !sumN_cons.
  apply N.add_le_mono; [apply H; left; reflexivity|apply IH; intros; apply H; right; assumption].
Qed.
Lemma sumN_map {A B} (h : B -> N) (g : A -> B) l : sumN h (map g l) = sumN (fun x => h (g x)) l.
Proof. unfold sumN. now rewrite map_map. Qed.
Lemma sumN_perm {A} (h : A -> N) l l' : Permutation l l' -> sumN h l = sumN h l'.
Proof. induction 1; rewrite ?sumN_cons in *; try lia. Qed.
(** things found under different keys *)
Lemma sumN_keys {A B} (h : A -> N) (g : N * B -> N) (key : A -> N) l : forall (fs : list (N * B)),
  NoDup (map key l) -> (forall x, In x l -> exists s, In (key x, s) fs /\ h x <= g (key x, s)) ->
  sumN h l <= sumN g fs.
Proof.
  induction l as [|x l IH]; intros fs Hn H; [unfold sumN; cbn; lia|]. cbn [map] in Hn. inversion_clear Hn as [|? ? Hni Hn'].
  destruct (H x (or_introl eq_refl)) as (s & Hin & Hle). apply in_split in Hin. destruct Hin as (a & b & ->).
  rewrite sumN_cons, sumN_app, sumN_cons. specialize (IH (a ++ b) Hn'). rewrite sumN_app in IH.
  assert (sumN h l <= sumN g a + sumN g b); [|lia]. apply IH. intros y Hy.
  destruct (H y (or_intror Hy)) as (s' & Hin & Hle'). exists s'. split; [|exact Hle'].
  apply in_app_iff in Hin. apply in_app_iff. destruct Hin as [Hin|[Hin|Hin]]; auto.
  injection Hin as E _. exfalso. apply Hni. rewrite E. apply in_map, Hy.
Qed.

Section Enc.
  Variable t : tables.
  Hypothesis Hw : wf t.
  Let Ht : tables_ok t := proj1 Hw.

  Lemma vsize_bulk v : scalar v = true -> vsize v <= bulk v.
  Proof. destruct v; intros H; try discriminate H; cbn [vsize bulk]; lia. Qed.
  Lemma key_len n w : (length (encode_key n w) <= 10)%nat.
  Proof. unfold encode_key. apply varint_len. Qed.
  Lemma packed_len k v b : enc_packed k v = Some b -> N.of_nat (length b) <= 10.
  Proof.
    destruct k, v; cbn [enc_packed]; try discriminate; intros [= <-];
    first [match goal with |- context [encode_varint ?x] => pose proof (varint_len x); unfold bytes in *; lia end
          | cbn [length]; lia].
  Qed.
  Lemma mk_len_bound f k b : mk_encode f k = Ok b -> N.of_nat (length b) + 30 <= key_bulk k.
  Proof.
    unfold mk_encode. destruct (mk_omitted f k) as [om| | |]; try discriminate. cbn [rbind]. destruct om.
    - intros [= <-]. cbn [length]. destruct k; cbn [key_bulk]; lia.
    - destruct (mk_enc_scalar (fd_kind f) k) as [[w bb]|] eqn:E; try discriminate. cbn [of_opt rbind fst snd]. intros [= <-].
      rewrite app_length. pose proof (key_len (fd_number f) w) as L.
      destruct k; destruct (fd_kind f); try discriminate E; cbn [mk_enc_scalar] in E; injection E as <- <-; cbn [key_bulk];
      try (match goal with |- context [encode_varint ?x] => pose proof (varint_len x); unfold bytes in *; lia end);
      try (cbn [length]; unfold bytes in *; lia).
      unfold write_delimited. rewrite app_length. match goal with |- context [encode_varint ?x] => pose proof (varint_len x) end. unfold bytes in *. lia.
  Qed.

  Definition enc_small (v : value) : Prop := forall f b, fdl_shape t f ->
    ok_elem t v (fd_kind f) = true \/ ok_field t f v = true -> enc_value t v f = Ok b -> N.of_nat (length b) <= bulk v.

  Lemma msg_small m b : msg_ok t m -> Forall (fun kv => slot_all enc_small (snd kv)) (dm_fields m) ->
    enc_msg t m = Ok b -> N.of_nat (length b) <= bulk_msg m.
  Proof.
    intros Hm IH He. unfold enc_msg in He. rewrite Forall_forall in IH.
    apply N.le_trans with (sumN (fun it => match it with IField f v | IExt f v => bulk v | IUnk us => N.of_nat (length (ufs_encode us)) end)
      (fs_iter t (dm_desc m) false false (dm_fields m))).
    - eapply rcat_size; [exact He|]. intros it c Hi Hc. pose proof (iter_items t _ _ _ it Ht Hi) as Q.
      assert (Q' : forall f v, find_desc t (dm_desc m) (fd_number f) = Some f -> bt_get (fd_number f) (dm_fields m) = Some (SVal v) ->
        enc_value t v f = Ok c -> N.of_nat (length c) <= bulk v).
      { intros f v Hf Hb E. pose proof (mo_slots _ _ Hm _ _ Hb) as Ho. unfold ok_slot in Ho. cbn [fst snd] in Ho. rewrite Hf in Ho.
        pose proof (IH _ (bt_get_In _ _ _ Hb)) as I1. cbn in I1. eapply I1; [eapply find_desc_shape; eassumption|right; exact Ho|exact E]. }
      destruct it as [f v|f v|us]; cbn [enc_item] in Hc.
      + destruct Q as (Q1 & Q2 & _). apply (Q' f v); auto. unfold find_desc. now rewrite Q1.
      + destruct Q as (Q1 & Q2 & _). apply (Q' f v); auto; [unfold find_desc; now rewrite (field_ext_disjoint _ _ _ _ Hw Q1)|].
        apply bt_In_get; [apply (mo_sorted _ _ Hm)|exact Q2].
      + injection Hc as <-. lia.
    - unfold bulk_msg. apply sumN_keys with (key := inum); [apply (iter_nodup t Hw), Hm|].
      intros it Hi. pose proof (iter_is_item t Hw m it Hm Hi) as I1. pose proof (iter_items t _ _ _ it Ht Hi) as Q.
      destruct it as [f v|f v|us].
      + destruct Q as (Q1 & Q2 & _). exists (SVal v). split; [apply bt_get_In, Q2|cbn; lia].
      + destruct Q as (Q1 & Q2 & _). exists (SVal v). split; [exact Q2|cbn; lia].
      + destruct Q as [n Q]. apply (bt_In_get _ _ _ (mo_sorted _ _ Hm)) in Q. destruct (unk_num t m n us Hm Q) as [En _].
        exists (SUnk us). rewrite En. split; [apply bt_get_In, Q|cbn; lia].
  Qed.

  Lemma value_small v : enc_small v.
  Proof.
    induction v as [b|z|z|n|n|n|n|s|s|z|d fs IH|vs IH|kvs IH] using value_ind'; intros f c Hsh Hok He;
      try (eapply N.le_trans; [eapply scalar_size; [|exact He]; reflexivity|apply vsize_bulk; reflexivity]).
    - rewrite enc_value_msg in He. destruct (negb (fd_presence f) && _).
      { injection He as <-. cbn [length]. lia. }
      destruct (kind_msg (fd_kind f)) as [i|] eqn:Ek; [|discriminate He].
      destruct (enc_msg t (DM d fs)) as [body| | |] eqn:Eb; try discriminate He. cbn [rbind] in He.
      assert (Hm : msg_ok t (DM d fs)).
      { assert (Ho : ok_elem t (VMessage (DM d fs)) (fd_kind f) = true).
        { destruct Hok as [Ho|Ho]; [exact Ho|]. rewrite ok_field_plain in Ho by reflexivity. rewrite !andb_true_iff in Ho. tauto. }
        rewrite ok_elem_msg, Ek in Ho. apply andb_true_iff in Ho. apply ok_msg_iff. tauto. }
      pose proof (msg_small _ _ Hm IH Eb) as L. rewrite bulk_message.
      destruct (fd_is_group f).
      + injection He as <-. rewrite !app_length. pose proof (key_len (fd_number f) WStart). pose proof (key_len (fd_number f) WEnd). unfold bytes in *. lia.
      + destruct (len_msg t (DM d fs)) as [l| | |]; try discriminate He. cbn [rbind] in He. injection He as <-. rewrite !app_length.
        pose proof (key_len (fd_number f) WLen). pose proof (varint_len l). unfold bytes in *. lia.
    - destruct Hok as [Ho|Ho]; [discriminate Ho|]. cbn [ok_field] in Ho. rewrite andb_true_iff, forallb_forall in Ho. destruct Ho as [El Ho].
      cbn [enc_value] in He. rewrite El in He.
      destruct vs as [|v0 vs0].
      { assert (Ep : fd_presence f = false) by (apply (fs_nopres _ _ Hsh); unfold is_repeated, fd_is_list in *; now rewrite El || (apply andb_true_iff in El; tauto)).
        rewrite Ep in He. unfold is_default_for, fd_default_value in He. rewrite El in He. cbn in He. injection He as <-. cbn. lia. }
      remember (v0 :: vs0) as vs eqn:Ev. destruct (negb _ && _); [injection He as <-; cbn [length]; lia|].
      destruct (fd_packed f).
      + destruct (negb (fd_is_packable f)); [discriminate He|].
        destruct (rsum _ vs) as [l| | |]; try discriminate He. cbn [rbind] in He.
        destruct (rcat _ vs) as [body| | |] eqn:Eb; try discriminate He. cbn [rbind] in He. injection He as <-.
        rewrite !app_length. pose proof (key_len (fd_number f) WLen). pose proof (varint_len l).
        assert (L1 : N.of_nat (length body) <= sumN (fun _ => 10) vs).
        { eapply rcat_size; [exact Eb|]. intros x c0 Hx Hc. cbn beta in Hc. destruct (enc_packed (fd_kind f) x) as [y|] eqn:Ex; cbn [of_opt] in Hc; [|discriminate Hc]. injection Hc as <-.
          eapply packed_len, Ex. }
        assert (L2 : 20 * N.of_nat (length vs) + sumN (fun _ => 10) vs <= bulk (VList vs)).
        { cbn [bulk]. clear - Ho. assert (K : forall x, In x vs -> 30 <= bulk x).
          { intros x Hx. specialize (Ho x Hx). destruct x; cbn [bulk]; try lia; try discriminate Ho. destruct m. lia. }
          clear Ho. induction vs as [|x vs IH]; [cbn; lia|]. rewrite !sumN_cons. cbn [length]. specialize (K x (or_introl eq_refl)) as K1.
          assert (20 * N.of_nat (length vs) + sumN (fun _ => 10) vs <= sumN bulk vs) by (apply IH; intros; apply K; right; assumption). lia. }
        assert (1 <= length vs)%nat by (rewrite Ev; cbn; lia). unfold bytes in *. lia.
      + cbn [bulk]. eapply rcat_size; [exact He|]. intros x c' Hx Hc. rewrite Forall_forall in IH. eapply (IH x Hx); [exact Hsh| |exact Hc].
        left. apply Ho, Hx.
    - destruct Hok as [Ho|Ho]; [discriminate Ho|]. cbn [ok_field] in Ho. cbn [enc_value] in He.
      destruct (negb _ && _); [injection He as <-; cbn [length]; lia|].
      destruct (kind_msg (fd_kind f)) as [e|] eqn:Ek; [|discriminate Ho]. destruct (fd_is_map f) eqn:Em; [|discriminate Ho].
      destruct (entry_key t e) as [kf|] eqn:Ekf; [|discriminate Ho]. destruct (entry_value t e) as [vf|] eqn:Evf; [|discriminate Ho].
      rewrite andb_true_iff, forallb_forall in Ho. destruct Ho as [_ Ho].
      cbn [bulk]. eapply rcat_size; [exact He|]. intros [k v] c' Hx Hc. cbn [fst snd] in *.
      destruct (mk_len kf k) as [lk| | |]; try discriminate Hc. cbn [rbind] in Hc.
      destruct (len_value t v vf) as [lv| | |]; try discriminate Hc. cbn [rbind] in Hc.
      destruct (mk_encode kf k) as [bk| | |] eqn:Ebk; try discriminate Hc. cbn [rbind] in Hc.
      destruct (enc_value t v vf) as [bv| | |] eqn:Ebv; try discriminate Hc. cbn [rbind] in Hc. injection Hc as <-.
      rewrite !app_length. pose proof (key_len (fd_number f) WLen). pose proof (varint_len (lk + lv)). pose proof (mk_len_bound _ _ _ Ebk).
      specialize (Ho _ Hx). cbn [fst snd] in Ho. apply andb_true_iff in Ho. rewrite Forall_forall in IH.
      assert (N.of_nat (length bv) <= bulk v); [|unfold bytes in *; lia].
      apply (IH _ Hx vf bv); [|left; tauto|exact Ebv]. unfold entry_value in Evf. eapply get_field_shape; eassumption.
  Qed.
  Theorem bulk_bounds m b : ok_msg t m = true -> enc_msg t m = Ok b -> N.of_nat (length b) <= bulk_msg m.
  Proof.
    intros Hm. apply msg_small; [now apply ok_msg_iff|]. apply Forall_forall. intros [k [|v|us]] _; cbn; auto. apply value_small.
  Qed.
  Theorem bulk_fits m : ok_msg t m = true -> bulk_msg m < 2 ^ 64 -> fits t m.
  Proof. intros Hm Hb b He. eapply N.le_lt_trans; [eapply bulk_bounds; eassumption|exact Hb]. Qed.

  (** ** Normal forms are not larger *)
  Lemma omitted_bulk f v : fdl_ok t f -> omitted t f v = true -> bulk (fd_default_value t f) <= bulk v.
  Proof.
    unfold omitted, is_default_for. intros Hf H. apply andb_true_iff in H. destruct H as [_ H].
    assert (Sc : forall a, scalar a = true -> value_eqb v a = true -> bulk a <= bulk v).
    { intros a Sa Ha. destruct a; try discriminate Sa; destruct v; cbn in Ha; try discriminate Ha; cbn [bulk]; try lia;
      apply bytes_eqb_eq in Ha; subst; lia. }
    unfold fd_default_value in *. destruct (fd_is_list f); [cbn; lia|]. destruct (fd_is_map f); [cbn; lia|].
    destruct (fd_default f) as [a|] eqn:Ed.
    - apply Sc; auto. pose proof (fo_default _ _ Hf _ Ed) as Hs. destruct a; try reflexivity; destruct (fd_kind f); discriminate Hs.
    - destruct (fd_kind f); try (apply Sc; [reflexivity|exact H]); cbn [kind_default] in *;
      destruct v; cbn in H; try discriminate H; rewrite !bulk_message; match goal with |- context [bulk_msg (DM ?i [])] => change (bulk_msg (DM i [])) with 0 | |- context [bulk_msg (new_msg ?i)] => change (bulk_msg (new_msg i)) with 0 end; lia.
  Qed.
  Lemma norm_slots_bulk d fs : (forall kv, In kv fs -> sumN (fun kv => bulk_slot (snd kv)) (norm_slot t d kv) <= bulk_slot (snd kv)) ->
    sumN (fun kv => bulk_slot (snd kv)) (flat_map (norm_slot t d) fs) <= sumN (fun kv => bulk_slot (snd kv)) fs.
  Proof.
    induction fs as [|x fs IH]; intros H; [apply N.le_refl|]. cbn [flat_map]. rewrite sumN_app, sumN_cons.
    apply N.add_le_mono; [apply H; left; reflexivity|apply IH; intros; apply H; right; assumption].
  Qed.
  Lemma list_max_le {A} (h g : A -> nat) l : (forall x, In x l -> (h x <= g x)%nat) -> (list_max (map h l) <= list_max (map g l))%nat.
  Proof.
    induction l as [|x l IH]; intros H; cbn; [lia|]. pose proof (H x (or_introl eq_refl)).
    assert (list_max (map h l) <= list_max (map g l))%nat by (apply IH; intros; apply H; right; assumption). unfold list_max in *. lia.
  Qed.
  Lemma norm_slots_depth d fs : (forall kv, In kv fs -> (list_max (map (fun kv => depth_slot (snd kv)) (norm_slot t d kv)) <= depth_slot (snd kv))%nat) ->
    (list_max (map (fun kv => depth_slot (snd kv)) (flat_map (norm_slot t d) fs)) <= list_max (map (fun kv => depth_slot (snd kv)) fs))%nat.
  Proof.
    induction fs as [|x fs IH]; intros H; [apply Nat.le_refl|]. cbn [flat_map map]. rewrite map_app, list_max_app.
    pose proof (H x (or_introl eq_refl)). change (list_max (?a :: ?b)) with (Nat.max a (list_max b)).
    assert (list_max (map (fun kv => depth_slot (snd kv)) (flat_map (norm_slot t d) fs)) <= list_max (map (fun kv => depth_slot (snd kv)) fs))%nat
      by (apply IH; intros; apply H; right; assumption). lia.
  Qed.
  Lemma default_depth f : fdl_ok t f -> fd_presence f = false -> is_repeated f = false -> depth (fd_default_value t f) = O.
  Proof.
    intros Hf Hp Hr. unfold fd_default_value. destruct (fd_is_list f); [reflexivity|]. destruct (fd_is_map f); [reflexivity|].
    destruct (fd_default f) as [a|] eqn:Ed.
    - pose proof (fo_default _ _ Hf _ Ed) as Hs. destruct a; try reflexivity; destruct (fd_kind f); discriminate Hs.
    - destruct (fd_kind f) as [| | | | | | | | | | | | | | | i | i |] eqn:Ek; try reflexivity;
      (rewrite (fo_msg _ _ Hf) in Hp; [discriminate|rewrite Ek; reflexivity|exact Hr]).
  Qed.
  Lemma norm_bulk v : forall f, ok_elem t v (fd_kind f) = true \/ ok_field t f v = true ->
    bulk (norm t v f) <= bulk v /\ (depth (norm t v f) <= depth v)%nat.
  Proof.
    induction v as [b|z|z|n|n|n|n|s|s|z|d fs IH|vs IH|kvs IH] using value_ind'; intros f Hok; try (split; [apply N.le_refl|apply Nat.le_refl]).
    - rewrite norm_message, !bulk_message. rewrite Forall_forall in IH.
      assert (Hm : msg_ok t (DM d fs)).
      { assert (Ho : ok_elem t (VMessage (DM d fs)) (fd_kind f) = true).
        { destruct Hok as [Ho|Ho]; [exact Ho|]. rewrite ok_field_plain in Ho by reflexivity. rewrite !andb_true_iff in Ho. tauto. }
        rewrite ok_elem_msg in Ho. destruct (kind_msg (fd_kind f)); [|discriminate]. apply andb_true_iff in Ho. apply ok_msg_iff. tauto. }
      assert (K : forall n v g, In (n, SVal v) fs -> find_desc t d n = Some g -> bulk (norm t v g) <= bulk v /\ (depth (norm t v g) <= depth v)%nat).
      { intros n v g Hin Hg. pose proof (IH _ Hin) as I1. cbn in I1. apply I1. right.
        pose proof (mo_slots _ _ Hm _ _ (bt_In_get _ _ _ (mo_sorted _ _ Hm) Hin)) as Ho. unfold ok_slot in Ho. cbn [fst snd dm_desc] in Ho.
        rewrite Hg in Ho. exact Ho. }
      split.
      + apply N.add_le_mono_l. unfold bulk_msg. cbn [norm_msg dm_fields dm_desc]. apply norm_slots_bulk.
        intros [n [|v|us]] Hin; cbn [norm_slot snd fst]; try (cbn; lia).
        destruct (find_desc t d n) as [g|] eqn:Eg; [|cbn; lia]. destruct (fd_has t g v); [|cbn; lia].
        destruct (K _ _ _ Hin Eg). cbn. lia.
      + cbn [norm_msg dm_fields dm_desc depth]. apply le_n_S. apply norm_slots_depth.
        intros [n [|v|us]] Hin; cbn [norm_slot snd fst]; try (cbn; lia).
        destruct (find_desc t d n) as [g|] eqn:Eg; [|cbn; lia]. destruct (fd_has t g v); [|cbn; lia].
        destruct (K _ _ _ Hin Eg). cbn. lia.
    - destruct Hok as [Ho|Ho]; [discriminate Ho|]. cbn [ok_field] in Ho. rewrite andb_true_iff, forallb_forall in Ho. destruct Ho as [El Ho].
      cbn [norm bulk depth]. rewrite sumN_map, map_map. rewrite Forall_forall in IH.
      split; [apply sumN_le|apply list_max_le]; intros x Hx; apply (IH x Hx f); left; apply Ho, Hx.
    - destruct Hok as [Ho|Ho]; [discriminate Ho|]. cbn [ok_field] in Ho. cbn [norm].
      destruct (kind_msg (fd_kind f)) as [e|] eqn:Ek; [|discriminate Ho]. destruct (fd_is_map f) eqn:Em; [|discriminate Ho].
      destruct (entry_key t e) as [kf|] eqn:Ekf; [|discriminate Ho]. destruct (entry_value t e) as [vf|] eqn:Evf; [|discriminate Ho].
      rewrite andb_true_iff, forallb_forall in Ho. destruct Ho as [_ Ho]. rewrite Forall_forall in IH.
      assert (Hvf : fdl_ok t vf) by (unfold entry_value in Evf; eapply get_field_ok; eassumption).
      assert (K : forall kv, In kv kvs -> bulk (if omitted t vf (snd kv) then fd_default_value t vf else norm t (snd kv) vf) <= bulk (snd kv)
        /\ (depth (if omitted t vf (snd kv) then fd_default_value t vf else norm t (snd kv) vf) <= depth (snd kv))%nat).
      { intros kv Hin. specialize (Ho _ Hin). apply andb_true_iff in Ho. destruct (omitted t vf (snd kv)) eqn:Eo.
        - split; [apply omitted_bulk; auto|]. unfold omitted in Eo. apply andb_true_iff in Eo. destruct Eo as [Ep Eo]. apply negb_true_iff in Ep.
          unfold is_default_for in Eo. unfold fd_default_value in *. destruct (fd_is_list vf); [cbn; lia|]. destruct (fd_is_map vf); [cbn; lia|].
          destruct (fd_default vf) as [a|] eqn:Ed.
          + pose proof (fo_default _ _ Hvf _ Ed) as Hs. destruct a; cbn; try lia; destruct (fd_kind vf); discriminate Hs.
          + destruct (fd_kind vf); try (cbn; lia); cbn [kind_default] in *; destruct (snd kv) as [| | | | | | | | | |[]| |]; cbn in Eo; try discriminate Eo; cbn; lia.
        - apply (IH _ Hin vf). left. tauto. }
      cbn [bulk depth]. rewrite sumN_map, map_map. cbn [fst snd]. split; [apply sumN_le|apply list_max_le]; intros x Hx; destruct (K x Hx); [lia|assumption].
  Qed.
  Lemma norm_msg_bulk m : ok_msg t m = true -> bulk_msg (norm_msg t m) <= bulk_msg m /\ (msg_depth (norm_msg t m) <= msg_depth m)%nat.
  Proof.
    intros Hm. pose (f := Fdl 1 (KMessage (dm_desc m)) Optional false true None None false [] [] []). pose proof (norm_bulk (VMessage m) f) as H. rewrite norm_message, !bulk_message in H.
    assert (Ho : ok_elem t (VMessage m) (fd_kind f) = true) by (unfold f; cbn [fd_kind]; rewrite ok_elem_msg; cbn [kind_msg]; rewrite Nat.eqb_refl; exact Hm).
    specialize (H (or_introl Ho)). destruct m as [d fs]. cbn [depth norm_msg dm_desc dm_fields] in H. unfold msg_depth, depth_slot. cbn [norm_msg dm_desc dm_fields]. split; [lia|].
    destruct H as [_ H]. apply le_S_n in H. exact H.
  Qed.
  Lemma ren_bulk rho v : bulk (ren rho v) = bulk v.
  Proof.
    induction v as [b|z|z|n|n|n|n|s|s|z|d fs IH|vs IH|kvs IH] using value_ind'; try reflexivity.
    - cbn [ren bulk]. f_equal. rewrite sumN_map. unfold sumN. f_equal. apply map_ext_in. intros [n s] Hin. cbn [snd].
      rewrite Forall_forall in IH. specialize (IH _ Hin). destruct s; cbn in *; auto.
    - cbn [ren bulk]. rewrite sumN_map. unfold sumN. f_equal. apply map_ext_in. rewrite Forall_forall in IH. exact IH.
    - cbn [ren bulk]. rewrite sumN_map. unfold sumN. f_equal. apply map_ext_in. rewrite Forall_forall in IH. intros x Hx. cbn [fst snd]. f_equal. apply IH, Hx.
  Qed.
End Enc.
