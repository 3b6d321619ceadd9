(** The encoder writes what the grammar of WireSpec says. *)
From Verif Require Import Base BaseProofs Wire WireProofs Unknown UnknownProofs Value Descr Fields
  Codec DescrOk DescrProofs FieldsProofs LenProofs MergeProofs RoundSpec RoundProofs EncBytes
  WireSpec WireSpecScalars.
Open Scope N_scope.

Lemma some_eq {A} (a b : A) : Some a = Some b -> a = b.
Proof. congruence. Qed.
Lemma ok_eq {A} (a b : A) : Ok a = Ok b -> a = b.
Proof. congruence. Qed.

(** ** Numbers *)
Lemma shortest_loop n : forall v, v < 2 ^ (7 * N.of_nat n) -> (1 <= n)%nat ->
  shortest v (encode_varint_loop n v).
Proof.
  induction n as [|n IH]; intros v H Hn; [lia|]. cbn [encode_varint_loop].
  destruct (v <? 128) eqn:E; [constructor; lia|].
  assert (E2 : v = v mod 128 + 128 * (v / 128)) by (pose proof (N.div_mod v 128); lia).
  assert (Hm : v mod 128 < 128) by (apply N.mod_lt; lia).
  assert (Hd : 0 < v / 128) by (apply N.div_str_pos; lia).
  rewrite E2 at 1. rewrite (N.add_comm (v mod 128) 128). apply sh_more; [exact Hm|exact Hd|].
  replace (7 * N.of_nat (S n)) with (7 + 7 * N.of_nat n) in H by lia. rewrite N.pow_add_r in H.
  change (2 ^ 7) with 128 in H.
  apply IH; [apply N.div_lt_upper_bound; lia|].
  destruct n; [|lia]. change (2 ^ (7 * N.of_nat 0)) with 1 in H. lia.
Qed.
Lemma shortest_varint v : v < two64 -> shortest v (encode_varint v).
Proof.
  intros H. apply shortest_loop; [|lia]. eapply N.lt_trans; [exact H|]. reflexivity.
Qed.
Lemma short_key_enc n w : tag_ok n -> short_key n w (encode_key n w).
Proof.
  intros H. unfold short_key, encode_key. rewrite key_u32 by exact H.
  rewrite (N.mul_comm n 8). apply shortest_varint.
  pose proof (wt_num_bound w). unfold tag_ok in H. unfold two64. lia.
Qed.
Lemma short_delim s l : l = N.of_nat (length s) -> l < two64 -> short_delimited s (encode_varint l ++ s).
Proof. intros -> H. eexists. split; [apply shortest_varint; exact H|reflexivity]. Qed.

(** ** Scalars *)

(** The ranges of Rust's number types, at any depth. *)
Definition mk_nums (k : mapkey) : bool :=
  match k with MKI32 z => i32_ok z | MKI64 z => i64_ok z | MKU32 n => u32_ok n | MKU64 n => u64_ok n | _ => true end.
Fixpoint nums_ok (v : value) : bool :=
  match v with
  | VI32 z | VEnum z => i32_ok z
  | VI64 z => i64_ok z
  | VU32 n | VF32 n => u32_ok n
  | VU64 n | VF64 n => u64_ok n
  | VList vs => forallb nums_ok vs
  | VMap kvs => forallb (fun kv => mk_nums (fst kv) && nums_ok (snd kv)) kvs
  | VMessage (DM _ fs) => forallb (fun kv => match snd kv with SVal v' => nums_ok v' | _ => true end) fs
  | _ => true
  end.
Lemma sc_nums k v : sc_okb k v = true -> nums_ok v = true.
Proof. destruct v, k; cbn; intros H; try discriminate; try reflexivity; exact H. Qed.
Lemma mk_nums_ok k key : mk_okb k key = true -> mk_nums key = true.
Proof. destruct key, k; cbn; intros H; try discriminate; try reflexivity; exact H. Qed.
Lemma ok_nums t v :
  (forall k, ok_elem t v k = true -> nums_ok v = true) /\
  (forall f, ok_field t f v = true -> nums_ok v = true).
Proof.
  induction v as [b|z|z|n|n|n|n|s|s|z|d fs IH|vs IH|kvs IH] using value_ind'.
  11: { assert (A : forall k, ok_elem t (VMessage (DM d fs)) k = true -> nums_ok (VMessage (DM d fs)) = true).
    { intros k H. rewrite ok_elem_msg in H. destruct (kind_msg k); [|discriminate].
      apply andb_true_iff in H. destruct H as [_ H]. unfold ok_msg in H.
      rewrite !andb_true_iff in H. destruct H as [_ H]. cbn [dm_desc dm_fields] in H.
      cbn [nums_ok]. revert H. apply forallb_impl_in. intros [k0 s] Hin. cbn.
      rewrite Forall_forall in IH. specialize (IH _ Hin). destruct s; cbn in *; auto.
      destruct (find_desc t d k0); [|discriminate]. apply IH. }
    split; [exact A|]. intros f H. rewrite ok_field_plain in H by reflexivity.
    rewrite !andb_true_iff in H. eapply A. apply H. }
  11: { split; [discriminate|]. intros f H. cbn [ok_field] in H. apply andb_true_iff in H.
    destruct H as [_ H]. cbn [nums_ok]. revert H. apply forallb_impl_in. intros x Hx.
    rewrite Forall_forall in IH. apply (IH _ Hx). }
  11: { split; [discriminate|]. intros f H. cbn [ok_field] in H.
    destruct (kind_msg (fd_kind f)); [|discriminate]. destruct (fd_is_map f); [|discriminate].
    destruct (entry_key t n) as [kf|]; [|discriminate].
    destruct (entry_value t n) as [vf|]; [|discriminate].
    apply andb_true_iff in H. destruct H as [_ H]. cbn [nums_ok]. revert H. apply forallb_impl_in.
    intros x Hx. rewrite !andb_true_iff. intros [H1 H2]. split; [eapply mk_nums_ok; exact H1|].
    rewrite Forall_forall in IH. exact (proj1 (IH _ Hx) _ H2). }
  all: split; [intros k H; eapply sc_nums; exact H|];
    intros f H; rewrite ok_field_plain in H by reflexivity; rewrite !andb_true_iff in H;
    eapply sc_nums; apply H.
Qed.

Lemma twos64_i32 z : i32_ok z = true -> twos 64 (zu64 z) z.
Proof.
  intros H. apply twos_small with (bits := 32%Z) (n := zu32 z); [lia|].
  apply twos_si32. symmetry. now apply si32_zu32.
Qed.
Lemma twos64_i64 z : i64_ok z = true -> twos 64 (zu64 z) z.
Proof. intros H. apply twos_si64. symmetry. now apply si64_zu64. Qed.
Lemma twos32_i32 z : i32_ok z = true -> twos 32 (zu32 z) z.
Proof. intros H. apply twos_si32. symmetry. now apply si32_zu32. Qed.
Lemma zz32 z : i32_ok z = true -> zigzag (zigzag32 z) z.
Proof. intros H. unfold zigzag. rewrite (zigzag32_spec z H). unfold i32_ok in H. destruct (z <? 0)%Z eqn:E; lia. Qed.
Lemma zz64 z : i64_ok z = true -> zigzag (zigzag64 z) z.
Proof. intros H. unfold zigzag. rewrite (zigzag64_spec z H). destruct (z <? 0)%Z eqn:E; lia. Qed.
Lemma fixed4 v : v < two32 -> fixed 4 v (le_encode 4 v).
Proof. intros H. apply fixed_le. exact H. Qed.
Lemma fixed8 v : v < two64 -> fixed 8 v (le_encode 8 v).
Proof. intros H. apply fixed_le. exact H. Qed.
Lemma u32_lt n : u32_ok n = true -> n < two32. Proof. unfold u32_ok. lia. Qed.
Lemma u64_lt n : u64_ok n = true -> n < two64. Proof. unfold u64_ok. lia. Qed.
Ltac wr :=
  econstructor;
  first [ apply zu64_bound | apply twos64_i32; assumption | apply twos64_i64; assumption
        | apply twos32_i32; assumption | apply zz32; assumption | apply zz64; assumption
        | apply shortest_varint;
            first [apply zu64_bound | apply bool_small | apply zz32_64 | apply zigzag64_bound
                | apply u32_ok_64; assumption | apply u64_ok_64; assumption]
        | apply fixed4; first [apply zu32_bound | apply u32_lt; assumption]
        | apply fixed8; first [apply zu64_bound | apply u64_lt; assumption]
        | apply short_delim; [reflexivity|]
        | idtac ].
Lemma enc_written k v w b : nums_ok v = true -> enc_scalar k v = Some (w, b) ->
  N.of_nat (length b) < two64 -> written k w v b.
Proof.
  intros H E HL. destruct v, k; cbn [enc_scalar] in E; try discriminate E; apply some_eq in E;
    apply pair_equal_spec in E; destruct E as [<- <-]; cbn [nums_ok] in H; wr;
    unfold write_delimited in HL; rewrite app_length in HL; lia.
Qed.
Lemma packed_written k v b : nums_ok v = true -> enc_packed k v = Some b ->
  exists w, packs k w /\ written k w v b.
Proof.
  intros H E. destruct v, k; cbn [enc_packed] in E; try discriminate E; apply some_eq in E; subst b;
    cbn [nums_ok] in H; eexists; (split; [constructor|]); rewrite ?from_sint32_zigzag, ?from_sint64_zigzag; wr.
Qed.
Lemma packs_fun k w w' : packs k w -> packs k w' -> w = w'.
Proof. intros H H'. destruct H; inversion H'; reflexivity. Qed.
Lemma packable_packs k : is_packable k = true -> exists w, packs k w.
Proof. destruct k; cbn; intros H; try discriminate; eexists; constructor. Qed.
Lemma mk_enc_value k key : mk_enc_scalar k key = enc_scalar k (mk_value key).
Proof. destruct key, k; reflexivity. Qed.
Lemma mk_nums_value key : nums_ok (mk_value key) = mk_nums key.
Proof. destruct key; reflexivity. Qed.
Lemma mk_written kf k b : tag_ok (fd_number kf) -> mk_nums k = true -> mk_encode kf k = Ok b ->
  N.of_nat (length b) < two64 -> writes_key kf k b.
Proof.
  intros Ht Hn E HL. unfold mk_encode, mk_omitted in E.
  assert (W : forall b0, (let! wb := of_opt (mk_enc_scalar (fd_kind kf) k) in
       Ok (encode_key (fd_number kf) (fst wb) ++ snd wb)) = Ok b0 -> N.of_nat (length b0) < two64 ->
       exists w kb pl, short_key (fd_number kf) w kb /\ written (fd_kind kf) w (mk_value k) pl /\ b0 = kb ++ pl).
  { intros b0 E0 HL0. rewrite mk_enc_value in E0.
    destruct (enc_scalar (fd_kind kf) (mk_value k)) as [[w pl]|] eqn:Es; cbn [of_opt rbind fst snd] in E0; [|discriminate].
    apply ok_eq in E0. subst b0. rewrite app_length in HL0. exists w, (encode_key (fd_number kf) w), pl.
    split; [now apply short_key_enc|]. split; [|reflexivity]. apply enc_written; [now rewrite mk_nums_value|exact Es|lia]. }
  destruct (fd_presence kf) eqn:Ep; cbn [rbind] in E.
  - right. destruct (W _ E HL) as (w & kb & pl & A & B & C). exists w, kb, pl. auto.
  - destruct (mk_default (fd_kind kf)) as [dk|] eqn:Ed; cbn [of_opt rbind] in E; [|discriminate].
    destruct (mk_eqb k dk) eqn:Eq; cbn [rbind] in E.
    + apply ok_eq in E. subst b. apply mk_eqb_eq in Eq. subst dk. left. auto.
    + right. destruct (W _ E HL) as (w & kb & pl & A & B & C). exists w, kb, pl.
      split; [|auto]. right. intros F. rewrite Ed in F. apply some_eq in F. subst dk.
      rewrite (proj2 (mk_eqb_eq k k) eq_refl) in Eq. discriminate.
Qed.

(** ** Unknown fields *)
Lemma flat_map_concat {A} (g : A -> bytes) l : flat_map g l = concat (map g l).
Proof. induction l as [|a l IH]; cbn; [reflexivity|]. now rewrite IH. Qed.

Lemma uf_writes u : uf_ok u -> N.of_nat (length (uf_encode u)) < two64 -> writes_raw u (uf_encode u).
Proof.
  induction u as [n v|n bs|n bs|n fs IH|n bs] using ufield_ind'; intros Hok HL; cbn [uf_encode] in *.
  4: { apply uf_ok_group in Hok. destruct Hok as [Ht Hok]. rewrite flat_map_concat in *.
    constructor; try (now apply short_key_enc). rewrite !app_length in HL.
    assert (HL' : N.of_nat (length (concat (map uf_encode fs))) < two64) by lia. clear HL.
    revert IH Hok HL'. induction fs as [|u fs IHl]; intros IH Hok HL; [constructor|].
    inversion IH; inversion Hok; subst. cbn [map concat] in HL. rewrite app_length in HL.
    cbn [map]. constructor; [apply H1; [assumption|lia]|]. apply IHl; [assumption|assumption|lia]. }
  all: pose proof (uf_ok_tag _ Hok) as Ht; cbn [uf_number] in Ht.
  - constructor; [now apply short_key_enc|]. apply shortest_varint. apply Hok.
  - constructor; now apply short_key_enc.
  - constructor; [now apply short_key_enc|]. apply short_delim; [reflexivity|].
    unfold write_delimited in HL. rewrite !app_length in HL. lia.
  - constructor; now apply short_key_enc.
Qed.
Lemma ufs_writes us : Forall uf_ok us -> N.of_nat (length (ufs_encode us)) < two64 ->
  exists bss, Forall2 writes_raw us bss /\ ufs_encode us = concat bss.
Proof.
  intros Hok HL. exists (map uf_encode us). unfold ufs_encode in *. rewrite flat_map_concat in *.
  split; [|reflexivity]. revert Hok HL. induction us as [|u us IH]; intros Hok HL; [constructor|].
  inversion Hok; subst. cbn [map concat] in *. rewrite app_length in HL.
  constructor; [apply uf_writes; [assumption|lia]|]. apply IH; [assumption|lia].
Qed.

(** ** Messages *)
Lemma rcat_parts {A} (g : A -> res bytes) l b : rcat g l = Ok b ->
  exists bss, Forall2 (fun x bs => g x = Ok bs) l bss /\ b = concat bss.
Proof.
  revert b. induction l as [|a l IH]; intros b; cbn [rcat].
  - intros E. apply ok_eq in E. subst b. exists []. split; constructor.
  - change ((fix go (l : list A) : res bytes := _) l) with (rcat g l).
    destruct (g a) as [ba| | |] eqn:Ea; cbn [rbind]; try discriminate.
    destruct (rcat g l) as [bl| | |]; cbn [rbind]; try discriminate.
    intros E. apply ok_eq in E. subst b. destruct (IH _ eq_refl) as (bss & F & ->).
    exists (ba :: bss). split; [constructor; assumption|reflexivity].
Qed.
Lemma part_length (bs : bytes) bss : In bs bss -> (length bs <= length (concat bss))%nat.
Proof.
  induction bss as [|c bss IH]; [contradiction|]. cbn [concat]. rewrite app_length.
  intros [->|H]; [lia|]. specialize (IH H). lia.
Qed.
Lemma F2_upgrade {A B} (P Q : A -> B -> Prop) l l' : Forall2 P l l' ->
  (forall x y, In x l -> In y l' -> P x y -> Q x y) -> Forall2 Q l l'.
Proof.
  induction 1; intros H'; constructor.
  - apply H'; cbn; auto.
  - apply IHForall2. intros; apply H'; cbn; auto.
Qed.

Definition wrote (t : tables) (v : value) : Prop :=
  rust_ok v = true -> nums_ok v = true -> forall f b, tag_ok (fd_number f) ->
  enc_value t v f = Ok b -> N.of_nat (length b) < two64 -> writes t f v b.

Lemma items_wrote t m b : tables_ok t ->
  Forall (fun kv => slot_all (wrote t) (snd kv)) (dm_fields m) ->
  rust_ok_msg m = true -> nums_ok (VMessage m) = true ->
  enc_msg t m = Ok b -> N.of_nat (length b) < two64 -> writes_message t m b.
Proof.
  intros Ht IH Hr Hn E HL. unfold enc_msg in E. destruct (rcat_parts _ _ _ E) as (bss & F & ->).
  constructor. apply F2_upgrade with (1 := F). intros it bs Hit Hbs Ei.
  pose proof (part_length _ _ Hbs) as Hl.
  assert (HLb : N.of_nat (length bs) < two64) by lia. clear Hl.
  unfold rust_ok_msg in Hr. destruct m as [d fs]. cbn [dm_desc dm_fields rust_ok nums_ok] in *.
  rewrite forallb_forall in Hr, Hn. rewrite Forall_forall in IH.
  pose proof (iter_items _ _ _ _ _ Ht Hit) as Hi.
  destruct it as [f v|f v|us]; cbn [enc_item] in Ei.
  - destruct Hi as (Hf & Hb & _). apply bt_get_In in Hb. constructor.
    apply (IH _ Hb); [exact (Hr _ Hb)|exact (Hn _ Hb)| |exact Ei|exact HLb].
    apply (fo_tag t). eapply get_field_ok; eassumption.
  - destruct Hi as (Hf & Hb & _). constructor.
    apply (IH _ Hb); [exact (Hr _ Hb)|exact (Hn _ Hb)| |exact Ei|exact HLb].
    apply (fo_tag t). now destruct (get_ext_inv _ _ _ _ Ht Hf) as (_ & _ & ?).
  - destruct Hi as (n & Hb). pose proof (Hr _ Hb) as Hu. cbn in Hu. apply ok_eq in Ei. subst bs.
    destruct (ufs_writes us) as (bss' & F' & E'); [|exact HLb|].
    + apply Forall_forall. intros u Hu'. rewrite forallb_forall in Hu. apply uf_okb_ok. auto.
    + rewrite E'. constructor. exact F'.
Qed.

Lemma has_of t f v : negb (fd_presence f) && is_default_for t f v = false -> fd_has t f v = true.
Proof. unfold fd_has. destruct (fd_presence f), (is_default_for t f v); cbn; congruence. Qed.
Lemma absent_of t f v : negb (fd_presence f) && is_default_for t f v = true ->
  fd_presence f = false /\ is_default_for t f v = true.
Proof. destruct (fd_presence f), (is_default_for t f v); cbn; intros; split; congruence. Qed.

Lemma value_wrote t : tables_ok t -> forall v, wrote t v.
Proof.
  intros Ht v. induction v as [b|z|z|n|n|n|n|s|s|z|d fs IH|vs IH|kvs IH] using value_ind';
    intros Hr Hn f bs Hf E HL.
  11: { rewrite enc_value_msg in E.
    destruct (negb (fd_presence f) && is_default_for t f (VMessage (DM d fs))) eqn:Eh.
    { apply ok_eq in E. subst bs. apply absent_of in Eh. now apply ws_absent. }
    apply has_of in Eh.
    destruct (kind_msg (fd_kind f)) as [i|] eqn:Ek; [|discriminate].
    destruct (enc_msg t (DM d fs)) as [body| | |] eqn:Em; cbn [rbind] in E; try discriminate.
    assert (W : N.of_nat (length body) < two64 -> writes_message t (DM d fs) body).
    { intros HB. eapply items_wrote; eassumption. }
    pose proof (msg_agree t (DM d fs) Ht Hr) as A. rewrite Em in A.
    unfold fd_is_group in E. destruct (fd_kind f) as [| | | | | | | | | | | | | | |j|j|j] eqn:Ekf; try discriminate Ek.
    all: try (apply ok_eq in E; subst bs; rewrite !app_length in HL;
      eapply ws_group; [exact Eh|exact Ekf|now apply short_key_enc|apply W; lia|now apply short_key_enc]).
    all: destruct (len_msg t (DM d fs)) as [l| | |]; cbn [rbind] in E; try discriminate;
      apply ok_eq in E; subst bs; rewrite !app_length in HL; cbn [agree] in A;
      eapply ws_message; [exact Eh|exact Ekf|now apply short_key_enc|apply W; lia|];
      apply short_delim; [apply A; lia|rewrite A by lia; lia]. }
  11: { cbn [enc_value] in E.
    destruct (negb (fd_presence f) && is_default_for t f (VList vs)) eqn:Eh.
    { apply ok_eq in E. subst bs. apply absent_of in Eh. now apply ws_absent. }
    apply has_of in Eh.
    destruct (fd_is_list f) eqn:El; [|discriminate].
    cbn in Hr, Hn. rewrite forallb_forall in Hr, Hn. rewrite Forall_forall in IH.
    destruct (fd_packed f) eqn:Ep.
    - destruct (negb (fd_is_packable f)) eqn:Epk; [discriminate|]. apply negb_false_iff in Epk.
      destruct (packable_packs _ Epk) as (w & Hw).
      assert (A : agree (rsum (fun x => of_opt (len_packed (fd_kind f) x)) vs)
                        (rcat (fun x => of_opt (enc_packed (fd_kind f) x)) vs)).
      { apply agree_sum. intros x Hx. apply agree_of_opt, packed_agree. auto. }
      destruct (rsum _ vs) as [l| | |]; cbn [rbind] in E; try discriminate.
      destruct (rcat _ vs) as [body| | |] eqn:Eb; cbn [rbind] in E; try discriminate.
      apply ok_eq in E. subst bs. rewrite !app_length in HL. cbn [agree] in A.
      destruct (rcat_parts _ _ _ Eb) as (bss & F & ->).
      eapply ws_packed; [exact Eh|exact El|exact Ep|exact Hw|now apply short_key_enc| |].
      + apply F2_upgrade with (1 := F). intros x y Hx _ Ex.
        destruct (enc_packed (fd_kind f) x) as [y'|] eqn:Exy; cbn [of_opt] in Ex; [|discriminate].
        apply ok_eq in Ex. subst y'. destruct (packed_written _ _ _ (Hn _ Hx) Exy) as (w' & Hw' & H).
        now rewrite (packs_fun _ _ _ Hw Hw').
      + apply short_delim; [apply A; lia|rewrite A by lia; lia].
    - destruct (rcat_parts _ _ _ E) as (bss & F & ->). apply ws_list; [exact Eh|exact El|exact Ep|].
      apply F2_upgrade with (1 := F). intros x y Hx Hy Ex. pose proof (part_length _ _ Hy).
      apply (IH _ Hx); auto. lia. }
  11: { cbn [enc_value] in E.
    destruct (negb (fd_presence f) && is_default_for t f (VMap kvs)) eqn:Eh.
    { apply ok_eq in E. subst bs. apply absent_of in Eh. now apply ws_absent. }
    apply has_of in Eh.
    destruct (kind_msg (fd_kind f)) as [e|] eqn:Ekm; [|discriminate]. destruct (fd_is_map f) eqn:Emap; [|discriminate].
    destruct (entry_key t e) as [kf|] eqn:Ek; [|discriminate].
    destruct (entry_value t e) as [vf|] eqn:Ev; [|discriminate].
    cbn in Hr, Hn. rewrite forallb_forall in Hr, Hn. rewrite Forall_forall in IH.
    destruct (rcat_parts _ _ _ E) as (bss & F & ->). clear E.
    eapply ws_map; [exact Eh|exact Emap|exact Ekm|exact Ek|exact Ev|].
    apply F2_upgrade with (1 := F). intros [k v] y Hx Hy Ex. cbn [fst snd] in *. pose proof (part_length _ _ Hy) as Hl.
    assert (HLy : N.of_nat (length y) < two64) by lia. clear Hl HL.
    specialize (Hr _ Hx) as Hrx. specialize (Hn _ Hx) as Hnx. cbn [fst snd] in Hrx, Hnx.
    apply andb_true_iff in Hrx, Hnx. destruct Hrx as [Hrk Hrv]. destruct Hnx as [Hnk Hnv].
    pose proof (mk_agree kf k (entry_number _ _ _ Ht Ek) Hrk) as A1.
    pose proof (value_agree t Ht v Hrv vf (entry_vnumber _ _ _ Ht Ev)) as A2.
    destruct (mk_len kf k) as [lk| | |]; cbn [rbind] in Ex; try discriminate.
    destruct (len_value t v vf) as [lv| | |]; cbn [rbind] in Ex; try discriminate.
    destruct (mk_encode kf k) as [bk| | |] eqn:Ebk; cbn [rbind] in Ex; try discriminate.
    destruct (enc_value t v vf) as [bv| | |] eqn:Ebv; cbn [rbind] in Ex; try discriminate.
    apply ok_eq in Ex. subst y. cbn [agree] in A1, A2. rewrite !app_length in HLy.
    exists (encode_key (fd_number f) WLen), bk, bv, (encode_varint (lk + lv) ++ bk ++ bv).
    split; [now apply short_key_enc|]. split; [apply mk_written; [exact (entry_number _ _ _ Ht Ek)|exact Hnk|exact Ebk|lia]|].
    split; [apply (IH _ Hx Hrv Hnv); [exact (entry_vnumber _ _ _ Ht Ev)|exact Ebv|lia]|].
    split; [|reflexivity]. apply short_delim; [rewrite app_length, A1, A2 by lia; lia|rewrite A1, A2 by lia; lia]. }
  all: match type of E with enc_value ?t ?v ?f = _ =>
         destruct (negb (fd_presence f) && is_default_for t f v) eqn:Eh;
         cbn [enc_value] in E; rewrite Eh in E;
         [apply ok_eq in E; subst bs; apply absent_of in Eh; now apply ws_absent|];
         apply has_of in Eh;
         destruct (enc_scalar (fd_kind f) v) as [[w b']|] eqn:Es;
         cbn [of_opt rbind fst snd] in E; [|discriminate]
       end; apply ok_eq in E; subst bs; rewrite app_length in HL;
    (eapply ws_scalar; [exact Eh|now apply short_key_enc|]);
    apply enc_written; [exact Hn|exact Es|lia].
Qed.
Lemma msg_wrote t m b : wf t -> ok_msg t m = true -> enc_msg t m = Ok b ->
  N.of_nat (length b) < two64 -> writes_message t m b.
Proof.
  intros Hw Hok E HL. destruct (ok_msg_encodes t m Hw Hok) as [R _].
  assert (S : nums_ok (VMessage m) = true).
  { apply (proj1 (ok_nums t (VMessage m)) (KMessage (dm_desc m))). rewrite ok_elem_msg. cbn. rewrite Nat.eqb_refl. exact Hok. }
  eapply items_wrote; [exact (proj1 Hw)| |exact R|exact S|exact E|exact HL].
  apply Forall_forall. intros [n s] _. cbn. destruct s; cbn; auto. apply value_wrote. exact (proj1 Hw).
Qed.
