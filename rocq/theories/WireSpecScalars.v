(** The primitives of the wire format against the grammar of [WireSpec.v]. *)
From Verif Require Import Base BaseProofs Wire WireProofs LoopProofs Unknown Value Descr Fields Codec WireSpec.

(** ** Varints *)
Lemma varint_sound k : forall buf v r, bytes_ok buf -> decode_varint_loop k buf = Ok (v, r) ->
  exists pre, buf = pre ++ r /\ varint v pre /\ (length pre <= k)%nat.
Proof.
  induction k as [|k IH]; intros buf v r Hb; cbn [decode_varint_loop]; [discriminate|].
  destruct buf as [|b buf]; [discriminate|]. inversion Hb as [|? ? Hb1 Hb2]; subst.
  destruct (N.ltb_spec b 128) as [L|L].
  - intros H. assert (b = v /\ buf = r) as [-> ->]. { destruct k; [destruct (b <? 2)|]; try discriminate; now injection H as -> ->. }
    exists [v]. split; [reflexivity|]. split; [now constructor|cbn; lia].
  - intros H. apply rbind_ok in H. destruct H as ([v' r'] & H & E). injection E as <- <-.
    destruct (IH _ _ _ Hb2 H) as (pre & -> & Hv & Hl). exists (b :: pre). split; [reflexivity|]. split; [|cbn; lia].
    assert (b = 128 + b mod 128) as E by (pose proof (N.div_mod b 128); assert (b / 128 = 1) by (symmetry; apply (N.div_unique _ _ _ (b - 128)); lia); lia).
    rewrite E at 2. constructor; [apply N.mod_lt; lia|exact Hv].
Qed.
Lemma varint_complete bs : forall v k r, varint v bs -> (length bs <= S k)%nat -> v < 2 ^ (7 * N.of_nat k + 1) ->
  decode_varint_loop (S k) (bs ++ r) = Ok (v, r).
Proof.
  induction bs as [|b bs IH]; intros v k r Hv Hl Hb; inversion Hv; subst.
  - cbn. destruct (N.ltb_spec b 128); [|lia]. destruct k; [|reflexivity]. cbn in Hb.
    destruct (N.ltb_spec b 2); [reflexivity|lia].
  - cbn [app decode_varint_loop]. destruct (N.ltb_spec (128 + b0) 128); [lia|]. cbn [length] in Hl.
    destruct k as [|k]. { exfalso. assert (1 <= length bs)%nat by (inversion H3; cbn; lia). lia. }
    rewrite (IH v0 k r H3) by (try lia; replace (7 * N.of_nat (S k) + 1) with (7 + (7 * N.of_nat k + 1)) in Hb by lia;
      rewrite N.pow_add_r in Hb; change (2 ^ 7) with 128 in Hb; lia).
    cbn [rbind]. f_equal. f_equal. rewrite <- (N.mod_unique (128 + b0) 128 1 b0); lia.
Qed.
Lemma read_varint buf v r : bytes_ok buf -> decode_varint buf = Ok (v, r) -> exists pre, buf = pre ++ r /\ varint64 v pre.
Proof.
  intros Hb H. destruct (varint_sound _ _ _ _ Hb H) as (pre & E & Hv & Hl). exists pre.
  split; [exact E|]. split; [exact Hv|]. split; [exact Hl|]. exact (decode_varint_bound _ _ _ Hb H).
Qed.
Lemma varint_read v bs r : varint64 v bs -> decode_varint (bs ++ r) = Ok (v, r).
Proof. intros (Hv & Hl & Hb). apply varint_complete; auto. Qed.

Lemma varint_bytes v bs : varint v bs -> bytes_ok bs.
Proof. induction 1; (apply Forall_cons; [lia|]); [apply Forall_nil|assumption]. Qed.
Lemma varint_nonempty v bs : varint v bs -> (1 <= length bs)%nat.
Proof. destruct 1; cbn; lia. Qed.

(** ** Keys *)
Lemma wt_of_inv n w : wt_of n = Some w -> n = wt_num w.
Proof.
  unfold wt_of. destruct n as [|p]; [intros [= <-]; reflexivity|].
  do 4 (destruct p as [p|p|]; try discriminate; try (intros [= <-]; reflexivity)).
Qed.
Lemma read_key buf n w r : bytes_ok buf -> decode_key buf = Ok (n, w, r) -> exists kb, buf = kb ++ r /\ record_key n w kb.
Proof.
  intros Hb H. destruct (decode_key_inv _ _ _ _ H) as (key & Hv & Hk & Hw & -> & Ht).
  destruct (read_varint _ _ _ Hb Hv) as (kb & E & V). exists kb. split; [exact E|]. split; [exact Ht|].
  apply wt_of_inv in Hw. rewrite <- Hw, <- N.div_mod by lia. exact V.
Qed.
Lemma key_read n w kb r : record_key n w kb -> decode_key (kb ++ r) = Ok (n, w, r).
Proof.
  intros [Ht V]. unfold decode_key. rewrite (varint_read _ _ r V). cbn [rbind]. pose proof (wt_num_bound w).
  destruct (N.leb_spec two32 (8 * n + wt_num w)) as [L|L]; [unfold two32 in L; lia|].
  rewrite <- (N.mod_unique (8 * n + wt_num w) 8 n (wt_num w)) by lia. rewrite wt_of_num.
  rewrite <- (N.div_unique (8 * n + wt_num w) 8 n (wt_num w)) by lia.
  destruct (N.ltb_spec n 1); [lia|reflexivity].
Qed.
Lemma key_nonempty n w kb : record_key n w kb -> (1 <= length kb)%nat.
Proof. intros [_ [V _]]. exact (varint_nonempty _ _ V). Qed.

(** ** Delimited *)
Lemma read_delim buf s r : bytes_ok buf -> read_delimited buf = Ok (s, r) -> exists bs, buf = bs ++ r /\ delimited s bs.
Proof.
  intros Hb H. unfold read_delimited in H. apply rbind_ok in H. destruct H as ([len r1] & H1 & H2).
  destruct (read_varint _ _ _ Hb H1) as (lb & -> & V). apply take_bytes_inv in H2. destruct H2 as (-> & <-).
  exists (lb ++ s). split; [apply app_assoc|]. exists lb. auto.
Qed.
Lemma delim_read s bs r : delimited s bs -> read_delimited (bs ++ r) = Ok (s, r).
Proof.
  intros (lb & V & ->). unfold read_delimited. rewrite <- app_assoc, (varint_read _ _ _ V). cbn [rbind].
  now apply take_bytes_app.
Qed.

(** ** Fixed width *)
Lemma little_value v bs : little v bs <-> bytes_ok bs /\ v = le_value bs.
Proof.
  split.
  - induction 1; [split; [constructor|reflexivity]|]. destruct IHlittle as [A ->]. split; [now constructor|reflexivity].
  - intros [H ->]. induction H; cbn [le_value]; constructor; auto.
Qed.
Lemma read_fixed w buf v r : bytes_ok buf -> le_decode (N.of_nat w) buf = Ok (v, r) -> exists bs, buf = bs ++ r /\ fixed w v bs.
Proof.
  intros Hb H. unfold le_decode in H. apply rbind_ok in H. destruct H as ([bs r1] & H1 & E). injection E as <- <-.
  apply take_bytes_inv in H1. destruct H1 as (-> & L). exists bs. split; [reflexivity|]. split; [|lia].
  apply little_value. apply bytes_ok_app in Hb. tauto.
Qed.
Lemma fixed_read w v bs r : fixed w v bs -> le_decode (N.of_nat w) (bs ++ r) = Ok (v, r).
Proof.
  intros [H <-]. apply little_value in H. destruct H as [_ ->]. unfold le_decode. now rewrite take_bytes_app by reflexivity.
Qed.
Lemma fixed4_read v bs r : fixed 4 v bs -> le_decode 4 (bs ++ r) = Ok (v, r).
Proof. exact (fixed_read 4 v bs r). Qed.
Lemma fixed8_read v bs r : fixed 8 v bs -> le_decode 8 (bs ++ r) = Ok (v, r).
Proof. exact (fixed_read 8 v bs r). Qed.
Lemma fixed_le w v : v < 256 ^ N.of_nat w -> fixed w v (le_encode w v).
Proof.
  intros H. split; [|apply le_encode_length]. apply little_value. split; [apply le_encode_ok|].
  symmetry. now apply le_value_encode.
Qed.

(** ** Two's complement and zigzag *)
Lemma twos_si32 n z : twos 32 n z <-> z = si32 n.
Proof.
  unfold twos, si32, u32, two32. change (2 ^ (32 - 1))%Z with 2147483648%Z. change (2 ^ 32)%Z with 4294967296%Z.
  rewrite N2Z.inj_mod. change (Z.of_N 4294967296) with 4294967296%Z.
  pose proof (Z.mod_pos_bound (Z.of_N n) 4294967296 eq_refl) as B.
  destruct (Z.ltb_spec (Z.of_N n mod 4294967296) 2147483648) as [L|L]; split.
  - intros [R E]. rewrite <- E. destruct (Z_lt_le_dec z 0); [|symmetry; apply Z.mod_small; lia].
    exfalso. rewrite <- (Z.mod_unique z 4294967296 (-1) (z + 4294967296)) in E; lia.
  - intros ->. split; [lia|]. apply Z.mod_small. lia.
  - intros [R E]. destruct (Z_lt_le_dec z 0); [|rewrite Z.mod_small in E; lia].
    rewrite <- (Z.mod_unique z 4294967296 (-1) (z + 4294967296)) in E; lia.
  - intros ->. split; [lia|]. symmetry. apply (Z.mod_unique _ _ (-1)); lia.
Qed.
Lemma twos_si64 n z : twos 64 n z <-> z = si64 n.
Proof.
  unfold twos, si64, u64, two64. change (2 ^ (64 - 1))%Z with 9223372036854775808%Z. change (2 ^ 64)%Z with 18446744073709551616%Z.
  rewrite N2Z.inj_mod. change (Z.of_N 18446744073709551616) with 18446744073709551616%Z.
  pose proof (Z.mod_pos_bound (Z.of_N n) 18446744073709551616 eq_refl) as B.
  destruct (Z.ltb_spec (Z.of_N n mod 18446744073709551616) 9223372036854775808) as [L|L]; split.
  - intros [R E]. rewrite <- E. destruct (Z_lt_le_dec z 0); [|symmetry; apply Z.mod_small; lia].
    exfalso. rewrite <- (Z.mod_unique z 18446744073709551616 (-1) (z + 18446744073709551616)) in E; lia.
  - intros ->. split; [lia|]. apply Z.mod_small. lia.
  - intros [R E]. destruct (Z_lt_le_dec z 0); [|rewrite Z.mod_small in E; lia].
    rewrite <- (Z.mod_unique z 18446744073709551616 (-1) (z + 18446744073709551616)) in E; lia.
  - intros ->. split; [lia|]. symmetry. apply (Z.mod_unique _ _ (-1)); lia.
Qed.
Lemma twos_small bits n z : (2 <= bits <= 64)%Z -> twos bits n z -> twos 64 (zu64 z) z.
Proof.
  intros B [R _]. apply twos_si64. symmetry. apply si64_zu64. unfold i64_ok.
  assert (2 ^ (bits - 1) <= 2 ^ 63)%Z as P by (apply Z.pow_le_mono_r; lia). change (2 ^ 63)%Z with 9223372036854775808%Z in P. lia.
Qed.
Lemma zigzag_of n z : zigzag n z <-> z = (if (n mod 2 =? 0)%N then Z.of_N (n / 2) else - Z.of_N (n / 2) - 1)%Z.
Proof.
  unfold zigzag. pose proof (N.div_mod n 2 ltac:(lia)) as D. pose proof (N.mod_lt n 2 ltac:(lia)).
  destruct (Z.ltb_spec z 0); destruct (N.eqb_spec (n mod 2) 0); split; intros; lia.
Qed.
Lemma zigzag_un32 n z : zigzag (n mod 4294967296) z <-> z = unzigzag32 n.
Proof.
  rewrite zigzag_of. assert (n mod 4294967296 < two32) as B by (apply N.mod_lt; discriminate).
  rewrite <- (unzigzag32_spec _ B). unfold unzigzag32, u32. change two32 with 4294967296. now rewrite N.mod_mod by lia.
Qed.
Lemma zigzag_un64 n z : n < two64 -> zigzag n z <-> z = unzigzag64 n.
Proof. intros B. now rewrite zigzag_of, (unzigzag64_spec _ B). Qed.

(** ** UTF-8 *)
Lemma utf8_of_valid c r : code_point c -> utf8_valid (utf8_of c ++ r) = utf8_valid r.
Proof.
  intros C. unfold utf8_of. unfold code_point in C.
  assert (M : forall x, x mod 64 < 64) by (intros; apply N.mod_lt; lia).
  assert (D : forall x d, d <> 0 -> x = d * (x / d) + x mod d) by (intros; now apply N.div_mod).
  destruct (N.ltb_spec c 128) as [L1|L1]; [|destruct (N.ltb_spec c 2048) as [L2|L2]; [|destruct (N.ltb_spec c 65536) as [L3|L3]]];
    cbn [app utf8_valid]; unfold cont, in_range.
  - destruct (N.ltb_spec c 128); [reflexivity|lia].
  - assert (2 <= c / 64 < 32). { split; [apply N.div_le_lower_bound; lia|apply N.div_lt_upper_bound; lia]. }
    pose proof (M c). destruct (N.ltb_spec (192 + c / 64) 128); [lia|].
    replace ((194 <=? 192 + c / 64) && (192 + c / 64 <=? 223)) with true by (symmetry; lia).
    replace ((128 <=? 128 + c mod 64) && (128 + c mod 64 <=? 191)) with true by (symmetry; lia). reflexivity.
  - assert (c / 4096 < 16) by (apply N.div_lt_upper_bound; lia).
    pose proof (M c). pose proof (M (c / 64)) as M2. destruct (N.ltb_spec (224 + c / 4096) 128); [lia|].
    replace ((194 <=? 224 + c / 4096) && (224 + c / 4096 <=? 223)) with false by (symmetry; lia).
    replace ((224 <=? 224 + c / 4096) && (224 + c / 4096 <=? 239)) with true by (symmetry; lia).
    replace ((128 <=? 128 + c mod 64) && (128 + c mod 64 <=? 191)) with true by (symmetry; lia).
    rewrite andb_true_r. pose proof (D c 64 ltac:(lia)) as D1. pose proof (D (c / 64) 64 ltac:(lia)) as D2.
    rewrite N.div_div in D2 by lia. change (64 * 64) with 4096 in D2.
    destruct (N.eqb_spec (224 + c / 4096) 224); [replace ((160 <=? 128 + (c / 64) mod 64) && (128 + (c / 64) mod 64 <=? 191)) with true by (symmetry; lia); reflexivity|].
    destruct (N.eqb_spec (224 + c / 4096) 237).
    + replace ((128 <=? 128 + (c / 64) mod 64) && (128 + (c / 64) mod 64 <=? 159)) with true by (symmetry; lia). reflexivity.
    + replace ((128 <=? 128 + (c / 64) mod 64) && (128 + (c / 64) mod 64 <=? 191)) with true by (symmetry; lia). reflexivity.
  - assert (c / 262144 < 5) by (apply N.div_lt_upper_bound; lia).
    pose proof (M c). pose proof (M (c / 64)) as M2. pose proof (M (c / 4096)) as M3. destruct (N.ltb_spec (240 + c / 262144) 128); [lia|].
    replace ((194 <=? 240 + c / 262144) && (240 + c / 262144 <=? 223)) with false by (symmetry; lia).
    replace ((224 <=? 240 + c / 262144) && (240 + c / 262144 <=? 239)) with false by (symmetry; lia).
    replace ((240 <=? 240 + c / 262144) && (240 + c / 262144 <=? 244)) with true by (symmetry; lia).
    replace ((128 <=? 128 + c mod 64) && (128 + c mod 64 <=? 191)) with true by (symmetry; lia).
    replace ((128 <=? 128 + (c / 64) mod 64) && (128 + (c / 64) mod 64 <=? 191)) with true by (symmetry; lia).
    rewrite !andb_true_r. pose proof (D c 4096 ltac:(lia)) as D1. pose proof (D (c / 4096) 64 ltac:(lia)) as D2.
    rewrite N.div_div in D2 by lia. change (4096 * 64) with 262144 in D2. pose proof (N.mod_lt c 4096 ltac:(lia)).
    destruct (N.eqb_spec (240 + c / 262144) 240); [replace ((144 <=? 128 + (c / 4096) mod 64) && (128 + (c / 4096) mod 64 <=? 191)) with true by (symmetry; lia); reflexivity|].
    destruct (N.eqb_spec (240 + c / 262144) 244).
    + replace ((128 <=? 128 + (c / 4096) mod 64) && (128 + (c / 4096) mod 64 <=? 143)) with true by (symmetry; lia). reflexivity.
    + replace ((128 <=? 128 + (c / 4096) mod 64) && (128 + (c / 4096) mod 64 <=? 191)) with true by (symmetry; lia). reflexivity.
Qed.
Lemma text_valid s : utf8_text s -> utf8_valid s = true.
Proof.
  intros (cs & H & ->). induction H as [|c cs Hc _ IH]; [reflexivity|]. cbn [flat_map]. now rewrite utf8_of_valid.
Qed.
Lemma text_cons c s : code_point c -> utf8_text s -> utf8_text (utf8_of c ++ s).
Proof. intros Hc (cs & H & ->). exists (c :: cs). split; [now constructor|reflexivity]. Qed.
Lemma valid_text s : utf8_valid s = true -> utf8_text s.
Proof.
  assert (G : forall n s, (length s <= n)%nat -> utf8_valid s = true -> utf8_text s); [|intros; eapply G; eauto].
  clear s. induction n as [|n IH]; intros s Hn Hs.
  { destruct s; [|cbn in Hn; lia]. exists []. split; [constructor|reflexivity]. }
  destruct s as [|b0 r0]; [exists []; split; [constructor|reflexivity]|]. cbn [length] in Hn. cbn [utf8_valid] in Hs. unfold cont, in_range in Hs.
  destruct (N.ltb_spec b0 128) as [L|L].
  { specialize (IH r0 ltac:(lia) Hs). replace (b0 :: r0) with (utf8_of b0 ++ r0); [apply text_cons; [left; lia|exact IH]|].
    unfold utf8_of. destruct (N.ltb_spec b0 128); [reflexivity|lia]. }
  destruct ((194 <=? b0) && (b0 <=? 223)) eqn:E1.
  { destruct r0 as [|b1 r1]; [discriminate|]. cbn [length] in Hn. apply andb_true_iff in Hs. destruct Hs as [Hb Hs].
    specialize (IH r1 ltac:(lia) Hs). set (c := (b0 - 192) * 64 + (b1 - 128)).
    assert (c / 64 = b0 - 192) as D by (symmetry; apply (N.div_unique _ _ _ (b1 - 128)); unfold c; lia).
    assert (c mod 64 = b1 - 128) as M by (symmetry; apply (N.mod_unique _ _ (b0 - 192)); unfold c; lia).
    replace (b0 :: b1 :: r1) with (utf8_of c ++ r1); [apply text_cons; [left; unfold c; lia|exact IH]|].
    unfold utf8_of. destruct (N.ltb_spec c 128); [unfold c in *; lia|]. destruct (N.ltb_spec c 2048); [|unfold c in *; lia].
    rewrite D, M. cbn [app]. f_equal; [lia|]. f_equal. lia. }
  destruct ((224 <=? b0) && (b0 <=? 239)) eqn:E2.
  { destruct r0 as [|b1 [|b2 r2]]; try discriminate. cbn [length] in Hn. apply andb_true_iff in Hs. destruct Hs as [Hb Hs].
    apply andb_true_iff in Hb. destruct Hb as [Hb1 Hb2]. specialize (IH r2 ltac:(lia) Hs).
    set (c := (b0 - 224) * 4096 + (b1 - 128) * 64 + (b2 - 128)).
    assert (128 <= b1 <= 191) as B1 by (destruct (b0 =? 224); [lia|]; destruct (b0 =? 237); lia).
    assert (c / 64 = (b0 - 224) * 64 + (b1 - 128)) as D1 by (symmetry; apply (N.div_unique _ _ _ (b2 - 128)); unfold c; lia).
    assert (c mod 64 = b2 - 128) as M1 by (symmetry; apply (N.mod_unique _ _ ((b0 - 224) * 64 + (b1 - 128))); unfold c; lia).
    assert (c / 4096 = b0 - 224) as D2 by (symmetry; apply (N.div_unique _ _ _ ((b1 - 128) * 64 + (b2 - 128))); unfold c; lia).
    assert ((c / 64) mod 64 = b1 - 128) as M2 by (rewrite D1; symmetry; apply (N.mod_unique _ _ (b0 - 224)); lia).
    replace (b0 :: b1 :: b2 :: r2) with (utf8_of c ++ r2).
    - apply text_cons; [|exact IH]. unfold code_point. destruct (N.eqb_spec b0 224); [left; unfold c; lia|].
      destruct (N.eqb_spec b0 237); [left; unfold c; lia|]. unfold c. lia.
    - unfold utf8_of. assert (2048 <= c < 65536) by (destruct (N.eqb_spec b0 224); unfold c; lia).
      destruct (N.ltb_spec c 128); [lia|]. destruct (N.ltb_spec c 2048); [lia|]. destruct (N.ltb_spec c 65536); [|lia].
      rewrite D2, M2, M1. cbn [app]. f_equal; [lia|]. f_equal; [lia|]. f_equal. lia. }
  destruct ((240 <=? b0) && (b0 <=? 244)) eqn:E3; [|discriminate].
  destruct r0 as [|b1 [|b2 [|b3 r3]]]; try discriminate. cbn [length] in Hn. apply andb_true_iff in Hs. destruct Hs as [Hb Hs].
  apply andb_true_iff in Hb. destruct Hb as [Hb Hb3]. apply andb_true_iff in Hb. destruct Hb as [Hb1 Hb2]. specialize (IH r3 ltac:(lia) Hs).
  set (c := (b0 - 240) * 262144 + (b1 - 128) * 4096 + (b2 - 128) * 64 + (b3 - 128)).
  assert (128 <= b1 <= 191) as B1 by (destruct (b0 =? 240); [lia|]; destruct (b0 =? 244); lia).
  assert (c / 64 = (b0 - 240) * 4096 + (b1 - 128) * 64 + (b2 - 128)) as D1 by (symmetry; apply (N.div_unique _ _ _ (b3 - 128)); unfold c; lia).
  assert (c mod 64 = b3 - 128) as M1 by (symmetry; apply (N.mod_unique _ _ ((b0 - 240) * 4096 + (b1 - 128) * 64 + (b2 - 128))); unfold c; lia).
  assert (c / 4096 = (b0 - 240) * 64 + (b1 - 128)) as D2 by (symmetry; apply (N.div_unique _ _ _ ((b2 - 128) * 64 + (b3 - 128))); unfold c; lia).
  assert ((c / 64) mod 64 = b2 - 128) as M2 by (rewrite D1; symmetry; apply (N.mod_unique _ _ ((b0 - 240) * 64 + (b1 - 128))); lia).
  assert (c / 262144 = b0 - 240) as D3 by (symmetry; apply (N.div_unique _ _ _ ((b1 - 128) * 4096 + (b2 - 128) * 64 + (b3 - 128))); unfold c; lia).
  assert ((c / 4096) mod 64 = b1 - 128) as M3 by (rewrite D2; symmetry; apply (N.mod_unique _ _ (b0 - 240)); lia).
  assert (65536 <= c < 1114112) by (destruct (N.eqb_spec b0 240); [unfold c; lia|]; destruct (N.eqb_spec b0 244); unfold c; lia).
  replace (b0 :: b1 :: b2 :: b3 :: r3) with (utf8_of c ++ r3).
  - apply text_cons; [right; lia|exact IH].
  - unfold utf8_of. destruct (N.ltb_spec c 128); [lia|]. destruct (N.ltb_spec c 2048); [lia|]. destruct (N.ltb_spec c 65536); [lia|].
    rewrite D3, M3, M2, M1. cbn [app]. f_equal; [lia|]. f_equal; [lia|]. f_equal; [lia|]. f_equal. lia.
Qed.

(** ** Scalars *)

Lemma rd_inv e w old r x rest : rd e w old r = DOk x rest -> w = e /\ r = Ok (x, rest).
Proof.
  unfold rd, dlift. destruct (wt_eqb e w) eqn:E; [|discriminate]. apply wt_eqb_eq in E.
  destruct r as [[a b]| | |]; try discriminate. intros [= <- <-]. now subst.
Qed.
Lemma rd_varint_inv buf g x r : bytes_ok buf -> rd_varint buf g = Ok (x, r) ->
  exists n pl, buf = pl ++ r /\ varint64 n pl /\ x = g n.
Proof.
  intros Hb H. apply rbind_ok in H. destruct H as ([n r1] & H & E). injection E as <- <-.
  destruct (read_varint _ _ _ Hb H) as (pl & -> & V). now exists n, pl.
Qed.
Lemma rd_le_inv w buf g x r : bytes_ok buf -> rd_le (N.of_nat w) buf g = Ok (x, r) ->
  exists n pl, buf = pl ++ r /\ fixed w n pl /\ x = g n.
Proof.
  intros Hb H. apply rbind_ok in H. destruct H as ([n r1] & H & E). injection E as <- <-.
  destruct (read_fixed _ _ _ _ Hb H) as (pl & -> & V). now exists n, pl.
Qed.

Lemma read_scalar k v w buf x r : bytes_ok buf -> merge_scalar k v w buf = Some (DOk x r) ->
  holds k v /\ exists pl, buf = pl ++ r /\ scalar k w x pl.
Proof.
  intros Hb H. destruct v, k; cbn [merge_scalar] in H; try discriminate; apply (f_equal (fun o => match o with Some d => d | None => DFuel end)) in H;
    (split; [constructor|]); apply rd_inv in H; destruct H as [-> H];
    try (apply (rd_varint_inv _ _ _ _ Hb) in H; destruct H as (n' & pl & -> & V & ->); exists pl; split; [reflexivity|]);
    try (apply (rd_le_inv 4 _ _ _ _ Hb) in H; destruct H as (n' & pl & -> & V & ->); exists pl; split; [reflexivity|]);
    try (apply (rd_le_inv 8 _ _ _ _ Hb) in H; destruct H as (n' & pl & -> & V & ->); exists pl; split; [reflexivity|]);
    try solve [econstructor; (exact V || now apply twos_si32 || now apply twos_si64 || now apply zigzag_un32
                              || (apply zigzag_un64; [apply V|reflexivity]))].
  - apply rbind_ok in H. destruct H as ([s' r1] & H & E). destruct (utf8_valid s') eqn:U; [|discriminate]. injection E as <- <-.
    destruct (read_delim _ _ _ Hb H) as (pl & -> & D). exists pl. split; [reflexivity|]. constructor; [exact D|now apply valid_text].
  - apply rbind_ok in H. destruct H as ([s' r1] & H & E). injection E as <- <-.
    destruct (read_delim _ _ _ Hb H) as (pl & -> & D). exists pl. split; [reflexivity|]. now constructor.
Qed.
Lemma rd_ok w old x r : rd w w old (Ok (x, r)) = DOk x r.
Proof. unfold rd. destruct (wt_eqb w w) eqn:E; [reflexivity|]. now rewrite (proj2 (wt_eqb_eq w w) eq_refl) in E. Qed.
Lemma scalar_read k v w x pl r : holds k v -> scalar k w x pl -> merge_scalar k v w (pl ++ r) = Some (DOk x r).
Proof.
  intros H S. destruct S; inversion H; subst; cbn [merge_scalar]; unfold rd_varint, rd_le, rd_string;
    try (rewrite (varint_read _ _ r ltac:(eassumption)));
    try (rewrite (fixed4_read _ _ r ltac:(eassumption)));
    try (rewrite (fixed8_read _ _ r ltac:(eassumption)));
    try (rewrite (delim_read _ _ r ltac:(eassumption)));
    cbn [rbind]; try rewrite (text_valid _ ltac:(eassumption)); rewrite ?rd_ok;
    try (match goal with H : twos 32 _ _ |- _ => apply twos_si32 in H; subst end);
    try (match goal with H : twos 64 _ _ |- _ => apply twos_si64 in H; subst end);
    try (match goal with H : zigzag (_ mod _) _ |- _ => apply zigzag_un32 in H; subst end);
    try reflexivity.
  match goal with H : zigzag _ _ |- _ => apply zigzag_un64 in H; [subst; reflexivity|] end.
  match goal with H : varint64 _ _ |- _ => apply H end.
Qed.
