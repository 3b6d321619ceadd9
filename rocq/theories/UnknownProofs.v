(** Proofs about unknown fields. *)
From Verif Require Import Base BaseProofs Wire WireProofs LoopProofs Unknown.

Section Ind.
  Variable P : ufield -> Prop.
  Hypothesis H1 : forall n v, P (UVarint n v).
  Hypothesis H2 : forall n v, P (U64 n v).
  Hypothesis H3 : forall n v, P (ULen n v).
  Hypothesis H4 : forall n fs, Forall P fs -> P (UGroup n fs).
  Hypothesis H5 : forall n v, P (U32 n v).
  Fixpoint ufield_ind' (u : ufield) : P u :=
    match u with
    | UVarint n v => H1 n v
    | U64 n v => H2 n v
    | ULen n v => H3 n v
    | UGroup n fs =>
        H4 n fs ((fix go l : Forall P l :=
                    match l with
                    | [] => Forall_nil P
                    | u' :: l' => Forall_cons u' (ufield_ind' u') (go l')
                    end) fs)
    | U32 n v => H5 n v
    end.
End Ind.

Lemma uf_ok_group n fs : uf_ok (UGroup n fs) <-> tag_ok n /\ Forall uf_ok fs.
Proof.
  cbn. unfold tag_ok. split; intros [H1 H2]; split; auto.
  - clear H1. induction fs as [|u fs IH]; constructor; tauto.
  - clear H1. induction H2; auto.
Qed.

Lemma uf_ok_tag u : uf_ok u -> tag_ok (uf_number u).
Proof. destruct u; intros [H _]; exact H. Qed.

Lemma uf_depth_In fs u : In u fs -> (uf_depth u <= ufs_depth fs)%nat.
Proof.
  unfold ufs_depth. induction fs as [|x fs IH]; cbn; [contradiction|].
  intros [->|H]; [lia|]. apply IH in H. lia.
Qed.

Lemma uf_encode_shape u :
  exists body, uf_encode u = encode_key (uf_number u) (uf_wire_type u) ++ body.
Proof. destruct u; cbn; eauto. Qed.

Definition uf_body (u : ufield) : bytes :=
  match u with
  | UVarint _ v => encode_varint v
  | U64 _ bs | U32 _ bs => bs
  | ULen _ bs => write_delimited bs
  | UGroup n fs => ufs_encode fs ++ encode_key n WEnd
  end.

Lemma uf_encode_body u :
  uf_encode u = encode_key (uf_number u) (uf_wire_type u) ++ uf_body u.
Proof. destruct u; reflexivity. Qed.

Lemma uf_wire_type_not_end u : uf_wire_type u <> WEnd.
Proof. destruct u; discriminate. Qed.

Definition ufs_len_ok (us : list ufield) : Prop := N.of_nat (length (ufs_encode us)) < two64.
Definition uf_len_ok (u : ufield) : Prop := N.of_nat (length (uf_encode u)) < two64.

Lemma uf_len_ok_group n fs u : uf_len_ok (UGroup n fs) -> In u fs -> uf_len_ok u.
Proof.
  unfold uf_len_ok. intros H Hin. cbn [uf_encode] in H.
  apply in_split in Hin. destruct Hin as (l1 & l2 & ->).
  rewrite flat_map_app in H. cbn [flat_map] in H. rewrite !app_length in H. lia.
Qed.

(** Decoding the value part of an encoded unknown field gives it back. *)
Lemma uf_decode_value_body u :
  forall ctx rest, uf_ok u -> uf_len_ok u -> (uf_depth u <= ctx)%nat ->
  uf_decode_value ctx (uf_number u) (uf_wire_type u) (uf_body u ++ rest) = Ok (u, rest).
Proof.
  induction u as [n v|n bs|n bs|n fs IH|n bs] using ufield_ind'; intros ctx rest Hok Hlen Hd.
  - destruct ctx; cbn [uf_decode_value uf_number uf_wire_type uf_body];
      rewrite decode_encode_varint by apply Hok; reflexivity.
  - destruct Hok as [_ [Hb HL]].
    assert (Hv : le_decode 8 (bs ++ rest) = Ok (le_value bs, rest)).
    { unfold le_decode. rewrite take_bytes_app by (rewrite HL; reflexivity). reflexivity. }
    destruct ctx; cbn [uf_decode_value uf_number uf_wire_type uf_body];
      rewrite Hv; cbn [rbind]; rewrite <- HL, le_encode_value by exact Hb; reflexivity.
  - assert (Hr : read_delimited (write_delimited bs ++ rest) = Ok (bs, rest)).
    { apply read_write_delimited. unfold uf_len_ok in Hlen. cbn [uf_encode] in Hlen.
      unfold write_delimited in Hlen. rewrite !app_length in Hlen. lia. }
    destruct ctx; cbn [uf_decode_value uf_number uf_wire_type uf_body];
      rewrite Hr; reflexivity.
  - apply uf_ok_group in Hok. destruct Hok as [Ht Hok].
    cbn [uf_depth] in Hd. destruct ctx as [|ctx]; [lia|].
    cbn [uf_decode_value uf_number uf_wire_type uf_body].
    rewrite <- app_assoc.
    match goal with |- context [group_loop _ ?st _ _ _] => set (step := st) end.
    assert (He : forall l acc, (forall u, In u l -> In u fs) ->
                 eats step acc (ufs_encode l) (acc ++ l)).
    { induction l as [|u l IHl]; intros acc Hin.
      - rewrite app_nil_r. constructor.
      - cbn [ufs_encode flat_map]. rewrite uf_encode_body, <- app_assoc.
        assert (Hu : In u fs) by (apply Hin; left; reflexivity).
        rewrite Forall_forall in IH, Hok.
        eapply eats_cons with (s1 := acc ++ [u]).
        + apply uf_ok_tag, Hok, Hu.
        + apply uf_wire_type_not_end.
        + intros rest'. subst step. cbn beta.
          rewrite (IH u Hu); [reflexivity|apply Hok, Hu| |].
          * eapply uf_len_ok_group; eassumption.
          * apply uf_depth_In in Hu. unfold ufs_depth in Hu. lia.
        + replace (acc ++ u :: l) with ((acc ++ [u]) ++ l) by (rewrite <- app_assoc; reflexivity).
          apply IHl. intros u' Hu'. apply Hin. right; exact Hu'. }
    rewrite (group_loop_eats step n [] (ufs_encode fs) fs rest);
      [reflexivity| |exact Ht|lia].
    apply (He fs []). auto.
  - destruct Hok as [_ [Hb HL]].
    assert (Hv : le_decode 4 (bs ++ rest) = Ok (le_value bs, rest)).
    { unfold le_decode. rewrite take_bytes_app by (rewrite HL; reflexivity). reflexivity. }
    destruct ctx; cbn [uf_decode_value uf_number uf_wire_type uf_body];
      rewrite Hv; cbn [rbind]; rewrite <- HL, le_encode_value by exact Hb; reflexivity.
Qed.

Lemma uf_decode_encode u ctx rest :
  uf_ok u -> uf_len_ok u -> (uf_depth u <= ctx)%nat ->
  uf_decode ctx (uf_encode u ++ rest) = Ok (u, rest).
Proof.
  intros Hok Hl Hd. unfold uf_decode. rewrite uf_encode_body, <- app_assoc.
  rewrite decode_encode_key by (apply uf_ok_tag; exact Hok). cbn [rbind].
  apply uf_decode_value_body; assumption.
Qed.

(** encoded_len agrees with encode. *)
Lemma uf_len_correct u : uf_ok u -> uf_len_ok u -> uf_len u = N.of_nat (length (uf_encode u)).
Proof.
  induction u as [n v|n bs|n bs|n fs IH|n bs] using ufield_ind'; intros Hok Hlen.
  - cbn [uf_len uf_encode]. rewrite app_length, Nat2N.inj_add.
    rewrite (key_len_correct n WVarint) by apply Hok.
    rewrite encoded_len_varint_correct by apply Hok. reflexivity.
  - cbn [uf_len uf_encode]. rewrite app_length, Nat2N.inj_add.
    rewrite (key_len_correct n W64) by apply Hok. reflexivity.
  - unfold uf_len_ok in Hlen. cbn [uf_len uf_encode] in *.
    unfold write_delimited in Hlen. rewrite !app_length in Hlen.
    rewrite app_length, Nat2N.inj_add.
    rewrite (key_len_correct n WLen) by apply Hok. f_equal.
    apply delimited_len_correct. lia.
  - pose proof Hok as Hok'. apply uf_ok_group in Hok'. destruct Hok' as [Ht Hfs].
    assert (Hin : forall u, In u fs -> uf_len_ok u).
    { intros u Hu. eapply uf_len_ok_group; eassumption. }
    cbn [uf_len uf_encode]. rewrite !app_length, !Nat2N.inj_add.
    rewrite <- (key_len_correct n WStart), <- (key_len_correct n WEnd) by exact Ht.
    assert (Hs : fold_right (fun u' a => uf_len u' + a) 0 fs
                 = N.of_nat (length (flat_map uf_encode fs))).
    { clear Hlen Hok. induction fs as [|u fs IHfs]; [reflexivity|].
      inversion_clear IH as [|? ? Hu IH']. inversion_clear Hfs as [|? ? Ho Hfs'].
      cbn [fold_right flat_map]. rewrite app_length, Nat2N.inj_add.
      rewrite Hu; [|exact Ho|apply Hin; left; reflexivity].
      rewrite IHfs; auto. intros; apply Hin; right; assumption. }
    rewrite Hs. lia.
  - cbn [uf_len uf_encode]. rewrite app_length, Nat2N.inj_add.
    rewrite (key_len_correct n W32) by apply Hok. reflexivity.
Qed.

Lemma ufs_len_correct us :
  Forall uf_ok us -> ufs_len_ok us -> ufs_len us = N.of_nat (length (ufs_encode us)).
Proof.
  unfold ufs_len_ok. intros H; induction H as [|u us Hu Hus IH]; intros HL; [reflexivity|].
  unfold ufs_len, ufs_encode in *. cbn [fold_right flat_map] in *.
  rewrite app_length in *. rewrite Nat2N.inj_add.
  rewrite uf_len_correct; [|exact Hu|unfold uf_len_ok; lia]. rewrite IH by lia. reflexivity.
Qed.

Lemma uf_encode_ok u : uf_ok u -> bytes_ok (uf_encode u).
Proof.
  induction u as [n v|n bs|n bs|n fs IH|n bs] using ufield_ind'; intros Hok; cbn [uf_encode].
  - apply bytes_ok_app; split; [apply encode_key_ok|apply encode_varint_ok].
  - apply bytes_ok_app; split; [apply encode_key_ok|apply Hok].
  - apply bytes_ok_app; split; [apply encode_key_ok|apply write_delimited_ok, Hok].
  - apply uf_ok_group in Hok. destruct Hok as [Ht Hok].
    apply bytes_ok_app; split; [apply encode_key_ok|].
    apply bytes_ok_app; split; [|apply encode_key_ok].
    clear Ht. induction fs as [|u fs IHfs]; [constructor|]. cbn [flat_map].
    inversion_clear IH. inversion_clear Hok. apply bytes_ok_app; split; auto.
  - apply bytes_ok_app; split; [apply encode_key_ok|apply Hok].
Qed.

Lemma ufs_encode_ok us : Forall uf_ok us -> bytes_ok (ufs_encode us).
Proof.
  induction 1; [constructor|]. cbn. apply bytes_ok_app; split; [apply uf_encode_ok|]; auto.
Qed.

Lemma le_decode_bound n b v r : bytes_ok b -> le_decode n b = Ok (v, r) -> v < 256 ^ n.
Proof.
  unfold le_decode. intros Hb H; apply rbind_ok in H; destruct H as [[s r'] [H1 H2]].
  injection H2 as <- <-. apply take_bytes_inv in H1. destruct H1 as [-> <-].
  apply le_value_bound. apply bytes_ok_app in Hb. tauto.
Qed.

(** Everything decoding produces is well-formed, shrinks the input and stays
    within the recursion budget; decoding never panics or runs out of fuel. *)
Definition uf_good (ctx : nat) (num : N) (b : bytes) (r : res (ufield * bytes)) : Prop :=
  match r with
  | Ok (u, rest) => uf_ok u /\ uf_number u = num /\ (uf_depth u <= ctx)%nat /\ suffix rest b
  | Err _ => True
  | Panic | Fuel => False
  end.

Lemma uf_decode_value_good ctx :
  forall num w b, tag_ok num -> bytes_ok b ->
  uf_good ctx num b (uf_decode_value ctx num w b).
Proof.
  induction ctx as [|ctx IH]; intros num w b Ht Hb.
  all: destruct w; cbn [uf_decode_value].
  all: try (pose proof (decode_varint_nopanic b) as [N1 N2];
            destruct (decode_varint b) as [[v r]| | |] eqn:E; cbn; try congruence; auto;
            repeat split; try (apply Ht); try lia;
            [eapply decode_varint_bound; eassumption|eapply decode_varint_suffix; eassumption]).
  all: try (pose proof (le_decode_nopanic 8 b) as [N1 N2];
            destruct (le_decode 8 b) as [[v r]| | |] eqn:E; cbn [rbind uf_good]; try congruence; auto;
            repeat split; try (apply Ht); try (cbn; lia);
            [apply le_encode_ok|eapply le_decode_suffix; eassumption]).
  all: try (pose proof (le_decode_nopanic 4 b) as [N1 N2];
            destruct (le_decode 4 b) as [[v r]| | |] eqn:E; cbn [rbind uf_good]; try congruence; auto;
            repeat split; try (apply Ht); try (cbn; lia);
            [apply le_encode_ok|eapply le_decode_suffix; eassumption]).
  all: try (pose proof (read_delimited_nopanic b) as [N1 N2];
            destruct (read_delimited b) as [[v r]| | |] eqn:E; cbn [rbind uf_good]; try congruence; auto;
            repeat split; try (apply Ht); try (cbn; lia);
            [|eapply read_delimited_suffix; eassumption];
            unfold read_delimited in E; apply rbind_ok in E; destruct E as [[l r'] [E1 E2]];
            apply decode_varint_suffix in E1; apply take_bytes_inv in E2; destruct E2 as [-> _];
            eapply suffix_ok in E1; [|exact Hb]; apply bytes_ok_app in E1; tauto).
  all: try exact I.
  (* groups *)
  match goal with |- context [group_loop _ ?st _ _ _] => set (step := st) end.
  set (Inv := fun us => Forall uf_ok us /\ (ufs_depth us <= ctx)%nat).
  assert (Hg : good Inv b (group_loop (S (length b)) step num [] b)).
  { apply group_loop_good with (L := length b); auto.
    - intros us n w b' [Hi1 Hi2] Hn Hb' HL. subst step. cbn beta.
      specialize (IH n w b' Hn Hb').
      destruct (uf_decode_value ctx n w b') as [[u r]| | |]; cbn in IH |- *; try contradiction.
      + destruct IH as (Hu & _ & Hd & Hs). split; [|exact Hs]. split.
        * apply Forall_app; split; [exact Hi1|constructor; [exact Hu|constructor]].
        * unfold ufs_depth in *. rewrite fold_right_app. cbn.
          clear -Hi2 Hd. induction us as [|x us IHu]; cbn in *; lia.
      + split; assumption.
    - split; [constructor|cbn; lia]. }
  destruct (group_loop (S (length b)) step num [] b) as [us r| | |]; cbn in Hg; try contradiction.
  - destruct Hg as [[Hg1 Hg2] Hs]. unfold uf_good.
    split; [apply uf_ok_group; split; assumption|].
    split; [reflexivity|]. split; [|exact Hs]. cbn. unfold ufs_depth in Hg2. lia.
  - exact I.
Qed.

Lemma uf_decode_value_dapp x ctx :
  forall num w b u r, uf_decode_value ctx num w b = Ok (u, r) ->
  uf_decode_value ctx num w (b ++ x) = Ok (u, r ++ x).
Proof.
  induction ctx as [|ctx IH]; intros num w b u r H.
  all: destruct w; cbn [uf_decode_value] in *; try discriminate.
  all: try (apply rbind_ok in H; destruct H as [[v r'] [H1 H2]]; injection H2 as <- <-).
  all: try (rewrite (decode_varint_app _ _ _ x H1); reflexivity).
  all: try (rewrite (le_decode_app_ext _ _ _ _ x H1); reflexivity).
  all: try (rewrite (read_delimited_app_ext _ _ _ x H1); reflexivity).
  match type of H with context [group_loop _ ?st _ _ _] => set (step := st) in * end.
  assert (Hd : dapp x (group_loop (S (length b)) step num [] b)
                      (group_loop (S (length (b ++ x))) step num [] (b ++ x))).
  { apply group_loop_dapp; [|rewrite app_length; lia].
    intros s n w b'. subst step. cbn beta.
    destruct (uf_decode_value ctx n w b') as [[u' r']| | |] eqn:E; try exact I.
    rewrite (IH _ _ _ _ _ E). reflexivity. }
  destruct (group_loop (S (length b)) step num [] b) as [us r0| | |]; try discriminate.
  injection H as <- <-. unfold dapp in Hd. rewrite Hd. reflexivity.
Qed.

Lemma uf_eqb_eq a : forall b, uf_eqb a b = true <-> a = b.
Proof.
  induction a as [n v|n bs|n bs|n fs IH|n bs] using ufield_ind'; intros b;
    destruct b as [n' v'|n' v'|n' v'|n' fs'|n' v']; cbn; try (split; congruence).
  1,2,3,5: rewrite andb_true_iff, N.eqb_eq, ?N.eqb_eq, ?bytes_eqb_eq;
      split; [intros [-> ->]; reflexivity|intros H; injection H; auto].
  rewrite andb_true_iff, N.eqb_eq.
  split.
  - intros [-> H]. f_equal. revert fs' H. induction IH as [|u fs Hu Hfs IHf]; intros [|u' fs'] H;
      try discriminate; [reflexivity|].
    apply andb_true_iff in H. destruct H as [Ha Hb]. f_equal; [apply Hu, Ha|apply IHf, Hb].
  - intros H; injection H as -> ->. split; [reflexivity|].
    induction IH as [|u fs Hu Hfs IHf]; [reflexivity|].
    apply andb_true_iff. split; [apply Hu; reflexivity|exact IHf].
Qed.

Lemma ufs_eqb_eq a b : ufs_eqb a b = true <-> a = b.
Proof.
  revert b; induction a as [|x a IH]; intros [|y b]; cbn; try (split; congruence).
  rewrite andb_true_iff, uf_eqb_eq, IH. split; [intros [-> ->]; reflexivity|].
  intros H; injection H; auto.
Qed.

Lemma uf_decode_good ctx b : bytes_ok b ->
  match uf_decode ctx b with
  | Ok (u, rest) =>
      uf_ok u /\ (uf_depth u <= ctx)%nat /\
      exists used, b = used ++ rest /\ (1 <= length used)%nat
  | Err _ => True
  | Panic | Fuel => False
  end.
Proof.
  intros Hb. unfold uf_decode. pose proof (decode_key_nopanic b) as [N1 N2].
  destruct (decode_key b) as [[[num w] r]| | |] eqn:E; cbn; auto; try congruence.
  pose proof (decode_key_tag_ok _ _ _ _ E) as Ht.
  destruct (decode_key_split _ _ _ _ E) as (p & Hp & Hl).
  assert (Hr : bytes_ok r) by (subst b; apply bytes_ok_app in Hb; apply Hb).
  pose proof (uf_decode_value_good ctx num w r Ht Hr) as G. unfold uf_good in G.
  destruct (uf_decode_value ctx num w r) as [[u rest]| | |]; auto.
  destruct G as (A & _ & C & (p' & D)). split; [exact A|]. split; [exact C|].
  exists (p ++ p'). split; [subst; now rewrite app_assoc|rewrite app_length; lia].
Qed.
