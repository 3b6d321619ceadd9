(** Lemmas about the wire primitives. *)
From Verif Require Import Base BaseProofs Wire.

Arguments N.mul : simpl never.
Arguments N.add : simpl never.
Arguments N.div : simpl never.
Arguments N.modulo : simpl never.
Arguments N.pow : simpl never.
Arguments N.ltb : simpl never.
Arguments N.leb : simpl never.
Arguments N.of_nat : simpl never.
Arguments N.to_nat : simpl never.

(** ** Varints *)

Lemma decode_encode_varint_loop n v r :
  v < 2 ^ (7 * N.of_nat n + 1) ->
  decode_varint_loop (S n) (encode_varint_loop (S n) v ++ r) = Ok (v, r).
Proof.
  revert v; induction n as [|n IH]; intros v Hv.
  - cbn. change (7 * N.of_nat 0 + 1) with 1 in Hv. change (2 ^ 1) with 2 in Hv.
    destruct (v <? 128) eqn:E; [|lia]. cbn. rewrite E.
    destruct (v <? 2) eqn:E2; [reflexivity|lia].
  - remember (S n) as m eqn:Hm. cbn [encode_varint_loop].
    destruct (v <? 128) eqn:E.
    + cbn. rewrite E. subst m. reflexivity.
    + cbn [app decode_varint_loop].
      destruct (v mod 128 + 128 <? 128) eqn:E2; [lia|].
      rewrite IH.
      * cbn. f_equal. f_equal.
        rewrite N.add_mod, N.mod_mod, N.mod_same, N.add_0_r, N.mod_mod by lia.
        rewrite N.add_comm. symmetry. apply N.div_mod'.
      * subst m. apply N.div_lt_upper_bound; [lia|].
        replace (7 * N.of_nat (S n) + 1) with (7 + (7 * N.of_nat n + 1)) in Hv by lia.
        rewrite N.pow_add_r in Hv. change (2 ^ 7) with 128 in Hv. exact Hv.
Qed.

Lemma decode_encode_varint v r :
  v < two64 -> decode_varint (encode_varint v ++ r) = Ok (v, r).
Proof.
  intros Hv. apply (decode_encode_varint_loop 9). exact Hv.
Qed.

Lemma decode_varint_loop_split n buf v r :
  decode_varint_loop n buf = Ok (v, r) ->
  exists pre, buf = pre ++ r /\ (1 <= length pre <= n)%nat.
Proof.
  revert buf v r; induction n as [|n IH]; intros buf v r; cbn; [discriminate|].
  destruct buf as [|b buf]; [discriminate|].
  destruct (b <? 128).
  - intros H. assert (buf = r) as <-.
    { destruct n; [destruct (b <? 2)|]; congruence. }
    exists [b]; cbn; split; [reflexivity|lia].
  - intros H; apply rbind_ok in H; destruct H as [[v' r'] [H1 H2]].
    injection H2 as <- <-. apply IH in H1. destruct H1 as [pre [-> Hl]].
    exists (b :: pre); cbn; split; [reflexivity|lia].
Qed.

Lemma decode_varint_split buf v r :
  decode_varint buf = Ok (v, r) -> exists pre, buf = pre ++ r /\ (1 <= length pre <= 10)%nat.
Proof. apply decode_varint_loop_split. Qed.

Lemma decode_varint_len buf v r :
  decode_varint buf = Ok (v, r) -> (length r < length buf)%nat.
Proof.
  intros H; apply decode_varint_split in H; destruct H as [pre [-> Hl]].
  rewrite app_length; lia.
Qed.

Lemma decode_varint_loop_app n buf v r x :
  decode_varint_loop n buf = Ok (v, r) -> decode_varint_loop n (buf ++ x) = Ok (v, r ++ x).
Proof.
  revert buf v r; induction n as [|n IH]; intros buf v r; cbn; [discriminate|].
  destruct buf as [|b buf]; [discriminate|]. cbn [app].
  destruct (b <? 128).
  - destruct n; [destruct (b <? 2)|]; intros H; inversion H; subst; reflexivity.
  - intros H; apply rbind_ok in H; destruct H as [[v' r'] [H1 H2]].
    injection H2 as <- <-. rewrite (IH _ _ _ H1). reflexivity.
Qed.

Lemma decode_varint_app buf v r x :
  decode_varint buf = Ok (v, r) -> decode_varint (buf ++ x) = Ok (v, r ++ x).
Proof. apply decode_varint_loop_app. Qed.

Lemma decode_varint_loop_nopanic n buf :
  decode_varint_loop n buf <> Panic /\ decode_varint_loop n buf <> Fuel.
Proof.
  revert buf; induction n as [|n IH]; intros buf; cbn; [split; discriminate|].
  destruct buf as [|b buf]; [split; discriminate|].
  destruct (b <? 128).
  - destruct n; [destruct (b <? 2)|]; split; discriminate.
  - specialize (IH buf). destruct (decode_varint_loop n buf) as [[? ?]| | |]; cbn;
      try (split; discriminate); tauto.
Qed.

Lemma decode_varint_nopanic buf : decode_varint buf <> Panic /\ decode_varint buf <> Fuel.
Proof. apply decode_varint_loop_nopanic. Qed.

Lemma decode_varint_loop_bound n buf v r :
  bytes_ok buf -> decode_varint_loop (S n) buf = Ok (v, r) -> v < 2 ^ (7 * N.of_nat n + 1).
Proof.
  revert buf v r; induction n as [|n IH]; intros buf v r Hb.
  - cbn. destruct buf as [|b buf]; [discriminate|].
    change (7 * N.of_nat 0 + 1) with 1. change (2 ^ 1) with 2.
    destruct (b <? 128); [destruct (b <? 2) eqn:E|]; cbn; try discriminate.
    intros H; injection H as <- <-; lia.
  - remember (S n) as m eqn:Hm. cbn [decode_varint_loop].
    destruct buf as [|b buf]; [discriminate|].
    assert (Hpow : 2 ^ (7 * N.of_nat m + 1) = 128 * 2 ^ (7 * N.of_nat n + 1)).
    { subst m. replace (7 * N.of_nat (S n) + 1) with (7 + (7 * N.of_nat n + 1)) by lia.
      rewrite N.pow_add_r. reflexivity. }
    assert (0 < 2 ^ (7 * N.of_nat n + 1)) by (apply N.neq_0_lt_0, N.pow_nonzero; lia).
    destruct (b <? 128) eqn:E.
    + subst m. intros H1; injection H1 as <- <-. rewrite Hpow. lia.
    + intros H1; apply rbind_ok in H1; destruct H1 as [[v' r'] [H1 H2]].
      injection H2 as <- <-. subst m. apply IH in H1; [|inversion_clear Hb; assumption].
      rewrite Hpow. lia.
Qed.

Lemma decode_varint_bound buf v r :
  bytes_ok buf -> decode_varint buf = Ok (v, r) -> v < two64.
Proof. intros Hb H. apply (decode_varint_loop_bound 9 buf v r Hb H). Qed.

Lemma encode_varint_loop_ok n v : bytes_ok (encode_varint_loop n v).
Proof.
  revert v; induction n as [|n IH]; intros v; cbn; [constructor|].
  destruct (v <? 128) eqn:E.
  - constructor; [lia|constructor].
  - constructor; [lia|apply IH].
Qed.

Lemma encode_varint_ok v : bytes_ok (encode_varint v).
Proof. apply encode_varint_loop_ok. Qed.

Lemma encode_varint_nonempty v : (1 <= length (encode_varint v))%nat.
Proof. unfold encode_varint. cbn [encode_varint_loop]. destruct (v <? 128); cbn; lia. Qed.

Lemma log2_lor_1 v : N.log2 (N.lor v 1) = N.log2 v.
Proof.
  rewrite N.log2_lor. change (N.log2 1) with 0. apply N.max_0_r.
Qed.

Lemma encode_varint_loop_len n v :
  v < 2 ^ (7 * N.of_nat n) -> (1 <= n)%nat ->
  N.of_nat (length (encode_varint_loop n v)) = N.log2 v / 7 + 1.
Proof.
  revert v; induction n as [|n IH]; intros v Hv Hn; [lia|].
  cbn [encode_varint_loop].
  destruct (v <? 128) eqn:E.
  - cbn [length]. assert (N.log2 v < 7).
    { destruct (N.eq_dec v 0) as [->|Hz]; [reflexivity|].
      apply N.log2_lt_pow2; [lia|]. change (2 ^ 7) with 128. lia. }
    rewrite N.div_small by assumption. reflexivity.
  - cbn [length]. rewrite Nat2N.inj_succ, IH.
    + rewrite <- N.add_1_r. f_equal.
      change 128 with (2 ^ 7). rewrite <- N.shiftr_div_pow2, N.log2_shiftr.
      assert (7 <= N.log2 v).
      { change 7 with (N.log2 128). apply N.log2_le_mono. lia. }
      lia.
    + replace (7 * N.of_nat (S n)) with (7 + 7 * N.of_nat n) in Hv by lia.
      rewrite N.pow_add_r in Hv. apply N.div_lt_upper_bound; [lia|exact Hv].
    + destruct n; [|lia]. change (7 * N.of_nat 1) with 7 in Hv.
      change (2 ^ 7) with 128 in Hv. lia.
Qed.

Lemma len_formula_sweep :
  forallb (fun l => (l * 9 + 73) / 64 =? l / 7 + 1) (map N.of_nat (seq 0 64)) = true.
Proof. vm_compute. reflexivity. Qed.

Lemma len_formula l : l < 64 -> (l * 9 + 73) / 64 = l / 7 + 1.
Proof.
  intros H. pose proof len_formula_sweep as S. rewrite forallb_forall in S.
  apply N.eqb_eq, S. apply in_map_iff. exists (N.to_nat l). split; [lia|].
  apply in_seq. lia.
Qed.

Lemma encoded_len_varint_correct v :
  v < two64 -> encoded_len_varint v = N.of_nat (length (encode_varint v)).
Proof.
  intros Hv. unfold encoded_len_varint. rewrite log2_lor_1.
  unfold encode_varint. rewrite encode_varint_loop_len.
  - apply len_formula. destruct (N.eq_dec v 0) as [->|Hz]; [reflexivity|].
    apply N.log2_lt_pow2; [lia|]. exact Hv.
  - eapply N.lt_trans; [exact Hv|]. reflexivity.
  - lia.
Qed.

(** ** Keys *)

Definition tag_ok (n : N) : Prop := 1 <= n < 536870912.

Lemma wt_num_bound w : wt_num w < 8.
Proof. destruct w; reflexivity. Qed.

Lemma wt_of_num w : wt_of (wt_num w) = Some w.
Proof. destruct w; reflexivity. Qed.

Lemma wt_eqb_eq a b : wt_eqb a b = true <-> a = b.
Proof. destruct a, b; cbv; split; intros; congruence. Qed.

Lemma key_u32 n : tag_ok n -> u32 (n * 8) = n * 8.
Proof. unfold tag_ok, u32, two32. intros H. apply N.mod_small. lia. Qed.

Lemma decode_encode_key n w r :
  tag_ok n -> decode_key (encode_key n w ++ r) = Ok (n, w, r).
Proof.
  intros H. unfold encode_key, decode_key. rewrite key_u32 by exact H.
  pose proof (wt_num_bound w) as Hw. unfold tag_ok in H.
  rewrite decode_encode_varint by (unfold two64; lia).
  cbn [rbind]. unfold two32.
  destruct (4294967296 <=? n * 8 + wt_num w) eqn:E; [lia|].
  replace ((n * 8 + wt_num w) mod 8) with (wt_num w) by lia.
  rewrite wt_of_num.
  replace ((n * 8 + wt_num w) / 8) with n by lia.
  destruct (n <? 1) eqn:E2; [lia|reflexivity].
Qed.

Lemma log2_key n w : tag_ok n -> N.log2 (n * 8 + wt_num w) = N.log2 (n * 8).
Proof.
  intros H. unfold tag_ok in H. pose proof (wt_num_bound w) as Hw.
  assert (Hs : forall x, x / 8 = n -> N.log2 x = N.log2 n + 3).
  { intros x Hx. pose proof (N.log2_shiftr x 3) as L.
    rewrite N.shiftr_div_pow2 in L. change (2 ^ 3) with 8 in L. rewrite Hx in L.
    assert (3 <= N.log2 x); [|lia].
    change 3 with (N.log2 8). apply N.log2_le_mono. lia. }
  rewrite (Hs (n * 8 + wt_num w)) by lia. rewrite (Hs (n * 8)) by lia. reflexivity.
Qed.

Lemma key_len_correct n w : tag_ok n -> key_len n = N.of_nat (length (encode_key n w)).
Proof.
  intros H. unfold key_len, encode_key. rewrite key_u32 by exact H.
  pose proof (wt_num_bound w) as Hw.
  rewrite <- encoded_len_varint_correct by (unfold tag_ok in H; unfold two64; lia).
  unfold encoded_len_varint. rewrite !log2_lor_1, log2_key by exact H. reflexivity.
Qed.

Lemma encode_key_ok n w : bytes_ok (encode_key n w).
Proof. apply encode_varint_ok. Qed.

Lemma encode_key_nonempty n w : (1 <= length (encode_key n w))%nat.
Proof. apply encode_varint_nonempty. Qed.

Lemma decode_key_inv buf n w r :
  decode_key buf = Ok (n, w, r) ->
  exists key, decode_varint buf = Ok (key, r) /\ key < two32 /\ wt_of (key mod 8) = Some w
              /\ n = key / 8 /\ tag_ok n.
Proof.
  unfold decode_key. intros H; apply rbind_ok in H; destruct H as [[key r'] [H1 H2]].
  destruct (two32 <=? key) eqn:E; [discriminate|].
  destruct (wt_of (key mod 8)) as [w'|] eqn:Ew; [|discriminate].
  destruct (key / 8 <? 1) eqn:E2; [discriminate|].
  injection H2 as <- <- <-. exists key.
  unfold tag_ok, two32 in *. repeat split; auto; lia.
Qed.

Lemma decode_key_tag_ok buf n w r : decode_key buf = Ok (n, w, r) -> tag_ok n.
Proof. intros H; apply decode_key_inv in H; destruct H as (k & _ & _ & _ & _ & H); exact H. Qed.

Lemma decode_key_len buf n w r : decode_key buf = Ok (n, w, r) -> (length r < length buf)%nat.
Proof.
  intros H; apply decode_key_inv in H; destruct H as (k & H & _).
  eapply decode_varint_len; exact H.
Qed.

Lemma decode_key_app buf n w r x :
  decode_key buf = Ok (n, w, r) -> decode_key (buf ++ x) = Ok (n, w, r ++ x).
Proof.
  intros H; pose proof H as H0. unfold decode_key in *.
  apply rbind_ok in H; destruct H as [[key r'] [H1 H2]].
  rewrite (decode_varint_app _ _ _ x H1). rewrite H1 in H0. cbn [rbind] in *.
  destruct (two32 <=? key); [discriminate|].
  destruct (wt_of (key mod 8)); [|discriminate].
  destruct (key / 8 <? 1); [discriminate|]. injection H0 as <- <- <-. reflexivity.
Qed.

Lemma decode_key_split buf n w r :
  decode_key buf = Ok (n, w, r) -> exists pre, buf = pre ++ r /\ (1 <= length pre)%nat.
Proof.
  intros H; apply decode_key_inv in H; destruct H as (k & H & _).
  apply decode_varint_split in H. destruct H as [pre [H1 H2]]. exists pre; split; [exact H1|lia].
Qed.

Lemma decode_key_nopanic buf : decode_key buf <> Panic /\ decode_key buf <> Fuel.
Proof.
  unfold decode_key. pose proof (decode_varint_nopanic buf) as [H1 H2].
  destruct (decode_varint buf) as [[key r]| | |]; cbn [rbind]; try (split; congruence).
  destruct (two32 <=? key); [split; discriminate|].
  destruct (wt_of (key mod 8)); [|split; discriminate].
  destruct (key / 8 <? 1); split; discriminate.
Qed.

(** ** Fixed-width values *)

Lemma le_encode_length n v : length (le_encode n v) = n.
Proof. revert v; induction n; intros; cbn; [reflexivity|]. f_equal; auto. Qed.

Lemma le_encode_ok n v : bytes_ok (le_encode n v).
Proof.
  revert v; induction n; intros v; cbn; constructor; [|apply IHn].
  apply N.mod_upper_bound. lia.
Qed.

Lemma le_value_encode n v : v < 256 ^ N.of_nat n -> le_value (le_encode n v) = v.
Proof.
  revert v; induction n as [|n IH]; intros v Hv.
  - change (256 ^ N.of_nat 0) with 1 in Hv. cbn. lia.
  - cbn [le_encode le_value]. rewrite IH.
    + rewrite N.add_comm. symmetry. apply N.div_mod'.
    + rewrite Nat2N.inj_succ, N.pow_succ_r' in Hv. apply N.div_lt_upper_bound; lia.
Qed.

Lemma le_value_bound l : bytes_ok l -> le_value l < 256 ^ N.of_nat (length l).
Proof.
  induction l as [|b l IH]; intros H; cbn [le_value length].
  - reflexivity.
  - inversion_clear H as [|? ? Hb Hl]. specialize (IH Hl).
    rewrite Nat2N.inj_succ, N.pow_succ_r'. lia.
Qed.

Lemma le_encode_value l : bytes_ok l -> le_encode (length l) (le_value l) = l.
Proof.
  induction l as [|b l IH]; intros H; cbn [le_value length le_encode]; [reflexivity|].
  inversion_clear H as [|? ? Hb Hl]. f_equal.
  - rewrite N.add_comm, (N.mul_comm 256), N.add_comm.
    rewrite N.mod_add by lia. apply N.mod_small; exact Hb.
  - rewrite (N.mul_comm 256), N.div_add by lia.
    rewrite N.div_small by exact Hb. rewrite N.add_0_l. auto.
Qed.

Lemma firstn_app_exact {A} (a b : list A) : firstn (length a) (a ++ b) = a.
Proof. rewrite firstn_app, firstn_all, Nat.sub_diag. cbn. apply app_nil_r. Qed.

Lemma skipn_app_exact {A} (a b : list A) : skipn (length a) (a ++ b) = b.
Proof. rewrite skipn_app, skipn_all, Nat.sub_diag. reflexivity. Qed.

Lemma take_bytes_app s r n :
  n = N.of_nat (length s) -> take_bytes n (s ++ r) = Ok (s, r).
Proof.
  intros ->. unfold take_bytes. rewrite app_length.
  destruct (N.of_nat (length s + length r) <? N.of_nat (length s)) eqn:E; [lia|].
  rewrite Nat2N.id, firstn_app_exact, skipn_app_exact. reflexivity.
Qed.

Lemma take_bytes_inv n buf s r :
  take_bytes n buf = Ok (s, r) -> buf = s ++ r /\ N.of_nat (length s) = n.
Proof.
  unfold take_bytes. destruct (N.of_nat (length buf) <? n) eqn:E; [discriminate|].
  intros H; injection H as <- <-. split; [symmetry; apply firstn_skipn|].
  rewrite firstn_length. lia.
Qed.

Lemma take_bytes_nopanic n buf : take_bytes n buf <> Panic /\ take_bytes n buf <> Fuel.
Proof. unfold take_bytes. destruct (_ <? _); split; discriminate. Qed.

Lemma le_decode_encode n v r :
  v < 256 ^ N.of_nat n -> le_decode (N.of_nat n) (le_encode n v ++ r) = Ok (v, r).
Proof.
  intros Hv. unfold le_decode. rewrite take_bytes_app.
  - cbn [rbind]. rewrite le_value_encode by exact Hv. reflexivity.
  - rewrite le_encode_length. reflexivity.
Qed.

Lemma read_write_delimited s r :
  N.of_nat (length s) < two64 -> read_delimited (write_delimited s ++ r) = Ok (s, r).
Proof.
  intros H. unfold read_delimited, write_delimited. rewrite <- app_assoc.
  rewrite decode_encode_varint by exact H. cbn [rbind].
  apply take_bytes_app. reflexivity.
Qed.

Lemma delimited_len_correct s :
  N.of_nat (length s) < two64 -> delimited_len s = N.of_nat (length (write_delimited s)).
Proof.
  intros H. unfold delimited_len, write_delimited.
  rewrite app_length, Nat2N.inj_add, encoded_len_varint_correct by exact H. reflexivity.
Qed.

Lemma write_delimited_ok s : bytes_ok s -> bytes_ok (write_delimited s).
Proof. intros H. apply bytes_ok_app; split; [apply encode_varint_ok|exact H]. Qed.

(** ** Casts *)

Lemma zu32_bound z : zu32 z < two32.
Proof. unfold zu32, two32. lia. Qed.
Lemma zu64_bound z : zu64 z < two64.
Proof. unfold zu64, two64. lia. Qed.

Lemma si32_range n : i32_ok (si32 n) = true.
Proof. unfold si32, i32_ok, u32, two32. destruct (_ <? _)%Z eqn:E; lia. Qed.
Lemma si64_range n : i64_ok (si64 n) = true.
Proof. unfold si64, i64_ok, u64, two64. destruct (_ <? _)%Z eqn:E; lia. Qed.

Lemma si64_zu64 z : i64_ok z = true -> si64 (zu64 z) = z.
Proof. unfold si64, i64_ok, zu64, u64, two64. intros H. destruct (_ <? _)%Z eqn:E; lia. Qed.
Lemma si32_zu32 z : i32_ok z = true -> si32 (zu32 z) = z.
Proof. unfold si32, i32_ok, zu32, u32, two32. intros H. destruct (_ <? _)%Z eqn:E; lia. Qed.
(** An i32 is sign-extended to u64 on encode and truncated on decode. *)
Lemma si32_zu64 z : i32_ok z = true -> si32 (zu64 z) = z.
Proof. unfold si32, i32_ok, zu64, u32, two32. intros H. destruct (_ <? _)%Z eqn:E; lia. Qed.
Lemma u32_small n : u32_ok n = true -> u32 n = n.
Proof. unfold u32_ok, u32. intros H. apply N.mod_small. lia. Qed.

(** ** Zigzag *)

Lemma shiftr_sign z k :
  (0 <= k)%Z -> (- 2 ^ k <= z < 2 ^ k)%Z -> Z.shiftr z k = if (z <? 0)%Z then (-1)%Z else 0%Z.
Proof.
  intros Hk H. rewrite Z.shiftr_div_pow2 by exact Hk.
  assert (0 < 2 ^ k)%Z by (apply Z.pow_pos_nonneg; lia).
  destruct (z <? 0)%Z eqn:E.
  - symmetry. apply (Z.div_unique_pos _ _ _ (z + 2 ^ k)); lia.
  - apply Z.div_small. lia.
Qed.

Lemma lxor_m1 a : Z.lxor a (-1) = (- a - 1)%Z.
Proof. rewrite Z.lxor_m1_r. unfold Z.lnot. lia. Qed.

Lemma si32_zu32_cong x : exists k, si32 (zu32 x) = (x + k * 4294967296)%Z.
Proof.
  unfold si32, zu32, u32, two32. cbv zeta.
  rewrite N.mod_small by lia. rewrite Z2N.id by lia.
  pose proof (Z.div_mod x 4294967296 ltac:(lia)) as D.
  destruct (_ <? _)%Z.
  - exists (- (x / 4294967296))%Z. lia.
  - exists (- (x / 4294967296) - 1)%Z. lia.
Qed.

Lemma zu32_cong x k : zu32 (x + k * 4294967296) = zu32 x.
Proof. unfold zu32. rewrite Z.mod_add by lia. reflexivity. Qed.

Lemma si64_zu64_cong x : exists k, si64 (zu64 x) = (x + k * 18446744073709551616)%Z.
Proof.
  unfold si64, zu64, u64, two64. cbv zeta.
  rewrite N.mod_small by lia. rewrite Z2N.id by lia.
  pose proof (Z.div_mod x 18446744073709551616 ltac:(lia)) as D.
  destruct (_ <? _)%Z.
  - exists (- (x / 18446744073709551616))%Z. lia.
  - exists (- (x / 18446744073709551616) - 1)%Z. lia.
Qed.

Lemma zu64_cong x k : zu64 (x + k * 18446744073709551616) = zu64 x.
Proof. unfold zu64. rewrite Z.mod_add by lia. reflexivity. Qed.

Lemma zigzag32_spec z :
  i32_ok z = true ->
  zigzag32 z = Z.to_N (if (z <? 0)%Z then -2 * z - 1 else 2 * z)%Z.
Proof.
  intros H. unfold zigzag32. rewrite (shiftr_sign z 31).
  2: lia. 2: { unfold i32_ok in H. change (2 ^ 31)%Z with 2147483648%Z. lia. }
  unfold i32_ok in H.
  destruct (z <? 0)%Z eqn:E.
  - rewrite lxor_m1. destruct (si32_zu32_cong (2 * z)) as [k ->].
    replace (- (2 * z + k * 4294967296) - 1)%Z with ((- 2 * z - 1) + (- k) * 4294967296)%Z by lia.
    rewrite zu32_cong. unfold zu32. rewrite Z.mod_small by lia. reflexivity.
  - rewrite Z.lxor_0_r. destruct (si32_zu32_cong (2 * z)) as [k ->].
    rewrite zu32_cong. unfold zu32. rewrite Z.mod_small by lia. reflexivity.
Qed.

Lemma zigzag64_spec z :
  i64_ok z = true ->
  zigzag64 z = Z.to_N (if (z <? 0)%Z then -2 * z - 1 else 2 * z)%Z.
Proof.
  intros H. unfold zigzag64. rewrite (shiftr_sign z 63).
  2: lia. 2: { unfold i64_ok in H. change (2 ^ 63)%Z with 9223372036854775808%Z. lia. }
  unfold i64_ok in H.
  destruct (z <? 0)%Z eqn:E.
  - rewrite lxor_m1. destruct (si64_zu64_cong (2 * z)) as [k ->].
    replace (- (2 * z + k * 18446744073709551616) - 1)%Z with ((- 2 * z - 1) + (- k) * 18446744073709551616)%Z by lia.
    rewrite zu64_cong. unfold zu64. rewrite Z.mod_small by lia. reflexivity.
  - rewrite Z.lxor_0_r. destruct (si64_zu64_cong (2 * z)) as [k ->].
    rewrite zu64_cong. unfold zu64. rewrite Z.mod_small by lia. reflexivity.
Qed.

Lemma unzigzag32_spec n :
  n < two32 ->
  unzigzag32 n = (if (n mod 2 =? 0)%N then Z.of_N (n / 2) else - Z.of_N (n / 2) - 1)%Z.
Proof.
  intros H. unfold unzigzag32, two32 in *. rewrite (u32_small n) by (unfold u32_ok, two32; lia).
  assert (Hs : si32 (n / 2) = Z.of_N (n / 2)).
  { unfold si32, u32, two32. destruct (_ <? _)%Z eqn:E; lia. }
  rewrite Hs. destruct (n mod 2 =? 0) eqn:E.
  - replace (- Z.of_N (n mod 2))%Z with 0%Z by lia. apply Z.lxor_0_r.
  - replace (- Z.of_N (n mod 2))%Z with (-1)%Z by lia. rewrite lxor_m1. lia.
Qed.

Lemma u64_small n : u64_ok n = true -> u64 n = n.
Proof. unfold u64_ok, u64. intros H. apply N.mod_small. lia. Qed.

Lemma unzigzag64_spec n :
  n < two64 ->
  unzigzag64 n = (if (n mod 2 =? 0)%N then Z.of_N (n / 2) else - Z.of_N (n / 2) - 1)%Z.
Proof.
  intros H. unfold unzigzag64, two64 in *. rewrite (u64_small n) by (unfold u64_ok, two64; lia).
  assert (Hs : si64 (n / 2) = Z.of_N (n / 2)).
  { unfold si64, u64, two64. destruct (_ <? _)%Z eqn:E; lia. }
  rewrite Hs. destruct (n mod 2 =? 0) eqn:E.
  - replace (- Z.of_N (n mod 2))%Z with 0%Z by lia. apply Z.lxor_0_r.
  - replace (- Z.of_N (n mod 2))%Z with (-1)%Z by lia. rewrite lxor_m1. lia.
Qed.

Lemma zigzag32_bound z : zigzag32 z < two32.
Proof. unfold zigzag32. apply zu32_bound. Qed.
Lemma zigzag64_bound z : zigzag64 z < two64.
Proof. unfold zigzag64. apply zu64_bound. Qed.

Lemma unzigzag32_zigzag32 z : i32_ok z = true -> unzigzag32 (zigzag32 z) = z.
Proof.
  intros H. rewrite unzigzag32_spec by apply zigzag32_bound.
  rewrite zigzag32_spec by exact H. unfold i32_ok in H.
  destruct (z <? 0)%Z eqn:E; destruct (_ =? 0) eqn:E2; lia.
Qed.

Lemma unzigzag64_zigzag64 z : i64_ok z = true -> unzigzag64 (zigzag64 z) = z.
Proof.
  intros H. rewrite unzigzag64_spec by apply zigzag64_bound.
  rewrite zigzag64_spec by exact H. unfold i64_ok in H.
  destruct (z <? 0)%Z eqn:E; destruct (_ =? 0) eqn:E2; lia.
Qed.

Lemma zigzag32_unzigzag32 n : n < two32 ->
  i32_ok (unzigzag32 n) = true /\ zigzag32 (unzigzag32 n) = n.
Proof.
  intros H. rewrite unzigzag32_spec by exact H. unfold two32 in H.
  assert (Hr : i32_ok (if (n mod 2 =? 0)%N then Z.of_N (n / 2) else - Z.of_N (n / 2) - 1)%Z = true).
  { unfold i32_ok. destruct (n mod 2 =? 0) eqn:E; lia. }
  split; [exact Hr|]. rewrite zigzag32_spec by exact Hr.
  destruct (n mod 2 =? 0) eqn:E; destruct (_ <? 0)%Z eqn:E2; lia.
Qed.

Lemma zigzag64_unzigzag64 n : n < two64 ->
  i64_ok (unzigzag64 n) = true /\ zigzag64 (unzigzag64 n) = n.
Proof.
  intros H. rewrite unzigzag64_spec by exact H. unfold two64 in H.
  assert (Hr : i64_ok (if (n mod 2 =? 0)%N then Z.of_N (n / 2) else - Z.of_N (n / 2) - 1)%Z = true).
  { unfold i64_ok. destruct (n mod 2 =? 0) eqn:E; lia. }
  split; [exact Hr|]. rewrite zigzag64_spec by exact Hr.
  destruct (n mod 2 =? 0) eqn:E; destruct (_ <? 0)%Z eqn:E2; lia.
Qed.

Lemma unzigzag32_range n : i32_ok (unzigzag32 n) = true.
Proof.
  assert (Hu : u32 n < two32) by (unfold u32, two32; lia).
  replace (unzigzag32 n) with (unzigzag32 (u32 n)).
  - apply (proj1 (zigzag32_unzigzag32 _ Hu)).
  - unfold unzigzag32. cbv zeta. rewrite (u32_small (u32 n)); [reflexivity|].
    unfold u32_ok. lia.
Qed.

Lemma unzigzag64_range n : i64_ok (unzigzag64 n) = true.
Proof.
  assert (Hu : u64 n < two64) by (unfold u64, two64; lia).
  replace (unzigzag64 n) with (unzigzag64 (u64 n)).
  - apply (proj1 (zigzag64_unzigzag64 _ Hu)).
  - unfold unzigzag64. cbv zeta. rewrite (u64_small (u64 n)); [reflexivity|].
    unfold u64_ok. lia.
Qed.

Lemma from_sint32_zigzag z : from_sint32 z = zigzag32 z.
Proof. reflexivity. Qed.
Lemma from_sint64_zigzag z : from_sint64 z = zigzag64 z.
Proof. reflexivity. Qed.

(** The textbook zigzag code of an integer. *)
Definition zigzag_spec (z : Z) : Z := (if z <? 0 then -2 * z - 1 else 2 * z)%Z.

Lemma zigzag32_small z : i32_ok z = true -> Z.of_N (zigzag32 z) = zigzag_spec z.
Proof. intros H. rewrite zigzag32_spec by exact H. unfold zigzag_spec.
  destruct (z <? 0)%Z eqn:E; lia. Qed.
Lemma zigzag64_small z : i64_ok z = true -> Z.of_N (zigzag64 z) = zigzag_spec z.
Proof. intros H. rewrite zigzag64_spec by exact H. unfold zigzag_spec.
  destruct (z <? 0)%Z eqn:E; lia. Qed.

Lemma sint32_bijection :
  (forall z, (- 2147483648 <= z <= 2147483647)%Z ->
     Z.of_N (from_sint32 z) = (if z <? 0 then -2 * z - 1 else 2 * z)%Z /\
     from_sint32 z < 4294967296 /\ unzigzag32 (from_sint32 z) = z) /\
  (forall n, n < 4294967296 ->
     (- 2147483648 <= unzigzag32 n <= 2147483647)%Z /\ from_sint32 (unzigzag32 n) = n).
Proof.
  split.
  - intros z Hz. assert (H : i32_ok z = true) by (unfold i32_ok; lia).
    rewrite from_sint32_zigzag. split; [apply zigzag32_small, H|].
    split; [apply zigzag32_bound|apply unzigzag32_zigzag32, H].
  - intros n Hn. destruct (zigzag32_unzigzag32 n Hn) as [A B].
    rewrite from_sint32_zigzag. split; [unfold i32_ok in A; lia|exact B].
Qed.

Lemma sint64_bijection :
  (forall z, (- 9223372036854775808 <= z <= 9223372036854775807)%Z ->
     Z.of_N (from_sint64 z) = (if z <? 0 then -2 * z - 1 else 2 * z)%Z /\
     from_sint64 z < 18446744073709551616 /\ unzigzag64 (from_sint64 z) = z) /\
  (forall n, n < 18446744073709551616 ->
     (- 9223372036854775808 <= unzigzag64 n <= 9223372036854775807)%Z /\
     from_sint64 (unzigzag64 n) = n).
Proof.
  split.
  - intros z Hz. assert (H : i64_ok z = true) by (unfold i64_ok; lia).
    rewrite from_sint64_zigzag. split; [apply zigzag64_small, H|].
    split; [apply zigzag64_bound|apply unzigzag64_zigzag64, H].
  - intros n Hn. destruct (zigzag64_unzigzag64 n Hn) as [A B].
    rewrite from_sint64_zigzag. split; [unfold i64_ok in A; lia|exact B].
Qed.

Lemma varint_round_trip v rest :
  v < 18446744073709551616 ->
  decode_varint (encode_varint v ++ rest) = Ok (v, rest) /\
  encoded_len_varint v = N.of_nat (length (encode_varint v)).
Proof.
  intros H. split; [apply decode_encode_varint, H|apply encoded_len_varint_correct, H].
Qed.
