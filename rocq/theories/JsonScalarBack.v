(** Scalars and map keys come back from JSON. *)
From Coq Require Import String.
From Verif Require Import Base BaseProofs Wire Unknown Value Descr Fields Codec DescrOk DescrProofs MergeProofs
  Float TextLex TextFormat TextParse TextLexProofs Json JsonSer JsonDe JsonNumbers JsonSafe.
Open Scope list_scope.
Open Scope N_scope.

(** the decimal number written for a finite float is read as the same one; of
    the others, the infinities and the NaN that reading gives *)
Definition float_back32 (E : json_externs) (b : N) : bool :=
  if f32_finite b then match de_f32 (JF64 (jx_carry32 E b)) with JOk b' => b' =? b | _ => false end
  else (b =? nan32) || (b =? inf32) || (b =? sign32 + inf32).
Definition float_back64 (E : json_externs) (b : N) : bool :=
  if f64_finite b then jx_carry64 E b =? b
  else (b =? nan64) || (b =? inf64) || (b =? sign64 + inf64).
(** what comes back of the scalars: a google.protobuf.NullValue is always
    NULL_VALUE *)
Definition scalar_backb (E : json_externs) (t : tables) (v : value) (k : kind) : bool :=
  match v with
  | VF32 b => float_back32 E b
  | VF64 b => float_back64 E b
  | VEnum z => match k with KEnum e => negb (is_null_enum t e) || (z =? 0)%Z | _ => true end
  | _ => true
  end.

Lemma dec_show x : dec_value (show_N x) = x.
Proof.
  rewrite <- (show_N_value x) at 2. unfold dec_value, radix_val.
  assert (G : forall s acc, Forall (fun c => is_digit c = true) s ->
    fold_left (fun a c => a * 10 + (c - 48)) s acc = fold_left (fun a c => a * 10 + hex_val c) s acc).
  { induction s as [|c s IH]; intros acc H; [reflexivity|]. inversion_clear H as [|? ? Hc Hs]. cbn [fold_left]. rewrite IH by exact Hs.
    unfold hex_val. rewrite Hc. reflexivity. }
  apply G, show_N_digits.
Qed.
Lemma show_okb x : digits_okb (show_N x) = true.
Proof.
  unfold digits_okb. pose proof (show_N_digits x) as H. destruct (show_N x) as [|c r] eqn:E.
  - pose proof (dec_show x) as D. rewrite E in D. cbn in D. subst x. discriminate E.
  - apply forallb_forall. rewrite Forall_forall in H. exact H.
Qed.
Lemma show_head x : exists c r, show_N x = c :: r /\ 48 <= c <= 57.
Proof.
  pose proof (show_okb x) as H. pose proof (show_N_digits x) as D. destruct (show_N x) as [|c r]; [discriminate|]. exists c, r. split; [reflexivity|].
  inversion_clear D as [|? ? Hc _]. unfold is_digit in Hc. lia.
Qed.
Lemma int_show_N lo hi n : (lo <= Z.of_N n <= hi)%Z -> int_from_str lo hi (show_N n) = Some (Z.of_N n).
Proof.
  intros H. pose proof (show_okb n) as Hd. pose proof (dec_show n) as Hv. destruct (show_head n) as (c & r & E & Hc). unfold int_from_str.
  assert (Hs : forall A (a b : bytes -> A) (d : A), match show_N n with 43 :: r => a r | 45 :: r => b r | _ => d end = d).
  { intros A a b d. rewrite E. destruct c as [|p]; [reflexivity|]. do 6 (destruct p as [p|p|]; try reflexivity; try (exfalso; cbn in Hc; lia)). }
  rewrite (Hs (option Z)). rewrite Hd, Hv. replace ((lo <=? Z.of_N n)%Z && (Z.of_N n <=? hi)%Z) with true by lia. reflexivity.
Qed.
Lemma int_show_Z lo hi z : (lo <= z <= hi)%Z -> (z < 0 -> lo < 0)%Z -> int_from_str lo hi (show_Z z) = Some z.
Proof.
  intros H Hlo. unfold show_Z. destruct (z <? 0)%Z eqn:Ez.
  - unfold int_from_str. rewrite show_okb, dec_show. replace (lo <? 0)%Z with true by lia. cbn [andb].
    replace (- Z.of_N (Z.to_N (- z)))%Z with z by lia. replace ((lo <=? z)%Z && (z <=? hi)%Z) with true by lia. reflexivity.
  - rewrite int_show_N by lia. f_equal. lia.
Qed.

Definition int_key (kd : kind) : option (Z * Z * (Z -> mapkey)) :=
  match kd with
  | KInt32 | KSint32 | KSfixed32 => Some (i32_lo, i32_hi, MKI32)
  | KInt64 | KSint64 | KSfixed64 => Some (i64_lo, i64_hi, MKI64)
  | KUint32 | KFixed32 => Some (0%Z, u32_hi, fun z => MKU32 (Z.to_N z))
  | KUint64 | KFixed64 => Some (0%Z, u64_hi, fun z => MKU64 (Z.to_N z))
  | _ => None
  end.
Lemma de_key_int kd lo hi mk s z : int_key kd = Some (lo, hi, mk) -> int_from_str lo hi s = Some z -> de_key kd s = JOk (mk z).
Proof.
  intros H E. destruct kd; try discriminate H; cbn [int_key] in H; injection H as <- <- <-; cbn [de_key]; rewrite E; reflexivity.
Qed.
Lemma key_i32 kd z : mk_okb kd (MKI32 z) = true -> int_key kd = Some (i32_lo, i32_hi, MKI32) /\ i32_ok z = true.
Proof. destruct kd; try discriminate; intros H; (split; [reflexivity|exact H]). Qed.
Lemma key_i64 kd z : mk_okb kd (MKI64 z) = true -> int_key kd = Some (i64_lo, i64_hi, MKI64) /\ i64_ok z = true.
Proof. destruct kd; try discriminate; intros H; (split; [reflexivity|exact H]). Qed.
Lemma key_u32 kd n : mk_okb kd (MKU32 n) = true -> int_key kd = Some (0%Z, u32_hi, fun z => MKU32 (Z.to_N z)) /\ u32_ok n = true.
Proof. destruct kd; try discriminate; intros H; (split; [reflexivity|exact H]). Qed.
Lemma key_u64 kd n : mk_okb kd (MKU64 n) = true -> int_key kd = Some (0%Z, u64_hi, fun z => MKU64 (Z.to_N z)) /\ u64_ok n = true.
Proof. destruct kd; try discriminate; intros H; (split; [reflexivity|exact H]). Qed.
Lemma i32_ends z : i32_ok z = true -> (i32_lo <= z <= i32_hi)%Z.
Proof. unfold i32_ok, i32_lo, i32_hi. lia. Qed.
Lemma i64_ends z : i64_ok z = true -> (i64_lo <= z <= i64_hi)%Z.
Proof. unfold i64_ok, i64_lo, i64_hi. lia. Qed.
Lemma u32_ends n : u32_ok n = true -> (0 <= Z.of_N n <= u32_hi)%Z.
Proof. unfold u32_ok, two32, u32_hi. lia. Qed.
Lemma u64_ends n : u64_ok n = true -> (0 <= Z.of_N n <= u64_hi)%Z.
Proof. unfold u64_ok, two64, u64_hi. lia. Qed.
Lemma i32_neg z : (z < 0 -> i32_lo < 0)%Z. Proof. reflexivity. Qed.
Lemma i64_neg z : (z < 0 -> i64_lo < 0)%Z. Proof. reflexivity. Qed.

Lemma key_back k kd : mk_okb kd k = true -> de_key kd (ser_key k) = JOk k.
Proof.
  destruct k as [b|z|z|n|n|s]; intros H; unfold ser_key.
  - destruct kd; try discriminate H. destruct b; reflexivity.
  - destruct (key_i32 _ _ H) as [H1 H2]. exact (de_key_int _ _ _ _ _ _ H1 (int_show_Z _ _ _ (i32_ends _ H2) (i32_neg z))).
  - destruct (key_i64 _ _ H) as [H1 H2]. exact (de_key_int _ _ _ _ _ _ H1 (int_show_Z _ _ _ (i64_ends _ H2) (i64_neg z))).
  - destruct (key_u32 _ _ H) as [H1 H2]. rewrite (de_key_int _ _ _ _ _ _ H1 (int_show_N _ _ _ (u32_ends _ H2))). now rewrite N2Z.id.
  - destruct (key_u64 _ _ H) as [H1 H2]. rewrite (de_key_int _ _ _ _ _ _ H1 (int_show_N _ _ _ (u64_ends _ H2))). now rewrite N2Z.id.
  - destruct kd; try discriminate H. reflexivity.
Qed.

Section Back.
  Variables (E : json_externs) (t : tables) (o : jopt) (deny : bool).

  Definition plain_json (j : json) : bool := match j with JObj _ | JArr _ => false | _ => true end.
  Lemma name_nan32 : de_f32 (JStr (s2b "NaN")) = JOk nan32. Proof. vm_compute. reflexivity. Qed.
  Lemma name_nan64 : de_f64 (JStr (s2b "NaN")) = JOk nan64. Proof. vm_compute. reflexivity. Qed.
  Lemma f32_back b : float_back32 E b = true -> de_f32 (carried E (ser_f32 b)) = JOk b.
  Proof.
    unfold float_back32, ser_f32. destruct (f32_finite b) eqn:Ef.
    - cbn [carried]. rewrite Ef. destruct (de_f32 (JF64 (jx_carry32 E b))); try discriminate. intros H. apply N.eqb_eq in H. now subst.
    - intros H. apply orb_true_iff in H. rewrite orb_true_iff, !N.eqb_eq in H. destruct H as [[-> | ->] | ->]; vm_compute; reflexivity.
  Qed.
  Lemma f64_back b : float_back64 E b = true -> de_f64 (carried E (ser_f64 b)) = JOk b.
  Proof.
    unfold float_back64, ser_f64. destruct (f64_finite b) eqn:Ef.
    - cbn [carried]. rewrite Ef. intros H. apply N.eqb_eq in H. cbn [de_f64]. now rewrite H.
    - intros H. apply orb_true_iff in H. rewrite orb_true_iff, !N.eqb_eq in H. destruct H as [[-> | ->] | ->]; vm_compute; reflexivity.
  Qed.
  Lemma f32_plain b : plain_json (carried E (ser_f32 b)) = true /\ carried E (ser_f32 b) <> JNull.
  Proof. unfold ser_f32. destruct (f32_finite b) eqn:Ef; [|split; [reflexivity|discriminate]]. cbn [carried]. rewrite Ef. split; [reflexivity|discriminate]. Qed.
  Lemma f64_plain b : plain_json (carried E (ser_f64 b)) = true /\ carried E (ser_f64 b) <> JNull.
  Proof. unfold ser_f64. destruct (f64_finite b) eqn:Ef; [|split; [reflexivity|discriminate]]. cbn [carried]. rewrite Ef. split; [reflexivity|discriminate]. Qed.

  Definition null_kind (k : kind) : bool := match k with KEnum e => is_null_enum t e | _ => false end.
  Lemma int_range lo hi fhi z : (lo <= z <= hi)%Z -> de_int lo hi fhi (JInt z) = JOk z.
  Proof. intros H. cbn [de_int]. replace ((lo <=? z)%Z && (z <=? hi)%Z) with true by lia. reflexivity. Qed.
  Lemma int_text lo hi fhi z : (lo <= z <= hi)%Z -> (z < 0 -> lo < 0)%Z -> de_int lo hi fhi (JStr (show_Z z)) = JOk z.
  Proof. intros H H0. cbn [de_int]. now rewrite int_show_Z. Qed.
  Lemma nat_text lo hi fhi n : (lo <= Z.of_N n <= hi)%Z -> de_int lo hi fhi (JStr (show_N n)) = JOk (Z.of_N n).
  Proof. intros H. cbn [de_int]. now rewrite int_show_N. Qed.

  Lemma scalar_back v k : sc_okb k v = true -> scalar_backb E t v k = true ->
    (forall e z nm, k = KEnum e -> json_enum_name E t e z = Some nm -> enum_number t e nm = Some z) ->
    exists j, ser_scalar E t o v k = Some (JOk j) /\ de_scalar t deny k (carried E j) = JOk (Some v) /\
      plain_json (carried E j) = true /\ (carried E j = JNull -> null_kind k = true).
  Proof.
    intros Hok Hs Henum. destruct v; destruct k; try discriminate Hok; cbn [ser_scalar sc_okb scalar_backb] in *.
    all: try (eexists; split; [reflexivity|]; split; [|split; [reflexivity|discriminate]];
              cbn [carried de_scalar]; unfold de_i32; rewrite int_range by (exact (i32_ends _ Hok)); reflexivity).
    all: try (eexists; split; [reflexivity|]; split; [|split; [reflexivity|discriminate]];
              cbn [carried de_scalar]; unfold de_u32; rewrite int_range by (exact (u32_ends _ Hok)); cbn [jbind]; rewrite N2Z.id; reflexivity).
    all: try (unfold ser_i64; destruct (j_stringify o); (eexists; split; [reflexivity|]; split; [|split; [reflexivity|discriminate]];
              cbn [carried de_scalar]; unfold de_i64; first [rewrite int_text by (exact (i64_ends _ Hok)||exact (i64_neg _))|rewrite int_range by (exact (i64_ends _ Hok))]; reflexivity)).
    all: try (unfold ser_u64; destruct (j_stringify o); (eexists; split; [reflexivity|]; split; [|split; [reflexivity|discriminate]];
              cbn [carried de_scalar]; unfold de_u64; first [rewrite nat_text by (exact (u64_ends _ Hok))|rewrite int_range by (exact (u64_ends _ Hok))]; cbn [jbind]; rewrite N2Z.id; reflexivity)).
    - eexists. split; [reflexivity|]. split; [reflexivity|]. split; [reflexivity|discriminate].
    - eexists. split; [reflexivity|]. cbn [de_scalar]. rewrite f32_back by exact Hs. destruct (f32_plain bits) as [H1 H2]. split; [reflexivity|]. split; [exact H1|contradiction].
    - eexists. split; [reflexivity|]. cbn [de_scalar]. rewrite f64_back by exact Hs. destruct (f64_plain bits) as [H1 H2]. split; [reflexivity|]. split; [exact H1|contradiction].
    - eexists. split; [reflexivity|]. split; [reflexivity|]. split; [reflexivity|discriminate].
    - eexists. split; [reflexivity|]. cbn [carried de_scalar]. rewrite de_bytes_encode by (now apply bytes_okb_ok). split; [reflexivity|]. split; [reflexivity|discriminate].
    - match type of Hs with context [is_null_enum t ?x] => rename x into e end.
      cbn [null_kind de_scalar]. unfold de_enum. destruct (is_null_enum t e) eqn:En.
      + cbn [negb orb] in Hs. apply Z.eqb_eq in Hs. subst z. eexists. split; [reflexivity|]. cbn. auto.
      + unfold i32_ok in Hok. assert (R : (i32_lo <=? z)%Z && (z <=? i32_hi)%Z = true) by (unfold i32_lo, i32_hi; lia).
        destruct (j_enum_numbers o).
        * eexists. split; [reflexivity|]. cbn [carried]. rewrite R. split; [reflexivity|]. split; [reflexivity|discriminate].
        * destruct (json_enum_name E t e z) as [nm|] eqn:Enm.
          -- eexists. split; [reflexivity|]. cbn [carried]. rewrite (Henum _ _ _ eq_refl Enm). split; [reflexivity|]. split; [reflexivity|discriminate].
          -- eexists. split; [reflexivity|]. cbn [carried]. rewrite R. split; [reflexivity|]. split; [reflexivity|discriminate].
  Qed.
End Back.
