(** C44: JSON numbers for integer fields.  C45: bytes as base64.  C46: the check
    of timestamps. *)
From Coq Require Import String.
From Verif Require Import Base BaseProofs Wire Value Descr Float TextFormat Json JsonSer JsonDe JsonNumbers.
Open Scope list_scope.
Open Scope N_scope.

(** ** C44 *)

(** the integers of each kind, and how they are stored *)
Definition int_limits (k : kind) : option (Z * Z) :=
  match k with
  | KInt32 | KSint32 | KSfixed32 => Some (- 2 ^ 31, 2 ^ 31 - 1)%Z
  | KUint32 | KFixed32 => Some (0, 2 ^ 32 - 1)%Z
  | KInt64 | KSint64 | KSfixed64 => Some (- 2 ^ 63, 2 ^ 63 - 1)%Z
  | KUint64 | KFixed64 => Some (0, 2 ^ 64 - 1)%Z
  | _ => None
  end.
Definition int_stored (k : kind) (z : Z) : value :=
  match k with
  | KInt32 | KSint32 | KSfixed32 => VI32 z
  | KUint32 | KFixed32 => VU32 (Z.to_N z)
  | KInt64 | KSint64 | KSfixed64 => VI64 z
  | _ => VU64 (Z.to_N z)
  end.
Definition is_64bit (k : kind) : bool :=
  match k with KInt64 | KSint64 | KSfixed64 | KUint64 | KFixed64 => true | _ => false end.
(** JSON numbers and the integers they are equal to *)
Definition json_number (j : json) : Prop :=
  match j with JInt _ => True | JF64 b => b < 2 ^ 64 | _ => False end.
Definition number_is (j : json) (z : Z) : Prop :=
  match j with JInt x => x = z | JF64 b => f64_is b z | _ => False end.

(** what [de] gives for a number *)
Lemma de_number E t deny k lo hi j buf : int_limits k = Some (lo, hi) -> json_number j ->
  (exists z, number_is j z /\ (lo <= z <= hi)%Z /\ de E t deny j buf (TGoal (GScalar k)) = JOk (Some (int_stored k z))) \/
  (is_64bit k = true /\ (exists b, j = JF64 b) /\ number_is j (hi + 1)%Z /\ de E t deny j buf (TGoal (GScalar k)) = JOk (Some (int_stored k hi))) \/
  (exists e, (forall z, number_is j z -> ~ (lo <= z <= hi)%Z) /\ de E t deny j buf (TGoal (GScalar k)) = JErr e).
Proof.
  intros Hk Hj.
  set (fhi := if is_64bit k then (hi + 1)%Z else hi).
  assert (D : de E t deny j buf (TGoal (GScalar k)) =
              jbind (de_int lo hi fhi j) (fun z => JOk (Some (int_stored k z)))).
  { subst fhi. destruct k; try discriminate Hk; injection Hk as <- <-; destruct j; reflexivity. }
  assert (L : (lo <= hi)%Z) by (destruct k; try discriminate Hk; injection Hk as <- <-; lia).
  rewrite D. clear D. destruct j as [|b|z|b|b|s|l|l]; try contradiction; cbn [json_number number_is] in *.
  - rewrite de_int_int. destruct ((lo <=? z)%Z && (z <=? hi)%Z) eqn:R.
    + left. exists z. apply andb_prop in R. destruct R as [R1 R2]. apply Z.leb_le in R1. apply Z.leb_le in R2. auto.
    + right; right. exists XRange. split; [|reflexivity]. intros x <- [R1 R2].
      apply Z.leb_le in R1. apply Z.leb_le in R2. rewrite R1, R2 in R. discriminate.
  - assert (L2 : (hi <= fhi)%Z) by (subst fhi; destruct (is_64bit k); lia).
    destruct (de_int_float lo hi fhi b L L2 Hj) as [(z & Hz & Hr & E1)|(e & Hn & E1)]; rewrite E1; cbn [jbind].
    + destruct (Z.leb_spec z hi) as [Q|Q].
      * left. exists z. rewrite Z.min_r by lia. repeat split; try assumption; lia.
      * right; left. subst fhi. destruct (is_64bit k); [|lia]. assert (z = (hi + 1)%Z) by lia. subst z.
        rewrite Z.min_l by lia. eauto.
    + right; right. exists e. split; [|reflexivity]. intros z Hz Hr. apply (Hn z Hz). lia.
Qed.

(** A number is accepted for an integer kind exactly when it is equal to an
    integer of that kind, and that integer is stored; anything else is an error.
    Excepted is the double 2^63 (2^64 for the unsigned kinds) given for a 64-bit
    kind. *)
Theorem C44_number_accepted : forall E t deny buf k lo hi j,
  int_limits k = Some (lo, hi) -> json_number j ->
  (is_64bit k = true -> (exists b, j = JF64 b) -> ~ number_is j (hi + 1)%Z) ->
  (forall v, de E t deny j buf (TGoal (GScalar k)) = JOk (Some v) <->
     exists z, number_is j z /\ (lo <= z <= hi)%Z /\ v = int_stored k z) /\
  ((exists v, de E t deny j buf (TGoal (GScalar k)) = JOk (Some v)) \/
   (exists e, de E t deny j buf (TGoal (GScalar k)) = JErr e)).
Proof.
  intros E t deny buf k lo hi j Hk Hj Hx.
  destruct (de_number E t deny k lo hi j buf Hk Hj) as [(z & Hz & Hr & D)|[(H64 & Hb & H1 & _)|(e & Hn & D)]].
  - rewrite D. split; [|left; eauto]. intros v. split.
    + intros [= <-]. eauto.
    + intros (z' & Hz' & Hr' & ->). f_equal. f_equal. f_equal.
      destruct j; try contradiction; cbn in *; [congruence|].
      apply (f64_int_spec _ _ Hj) in Hz. apply (f64_int_spec _ _ Hj) in Hz'. congruence.
  - exfalso. exact (Hx H64 Hb H1).
  - rewrite D. split; [|right; eauto]. intros v. split; [discriminate|].
    intros (z & Hz & Hr & _). exfalso. exact (Hn z Hz Hr).
Qed.
Print Assumptions C44_number_accepted.

(** The exception: the double 2^63 is accepted and 2^63 - 1 stored (2^64 and
    2^64 - 1): [v > (i64::MAX as f64)] is false because i64::MAX as f64 is
    2^63. *)
Theorem C44_limit_double_refuted : forall E t deny buf k lo hi b,
  int_limits k = Some (lo, hi) -> is_64bit k = true -> b < 2 ^ 64 -> f64_is b (hi + 1)%Z ->
  de E t deny (JF64 b) buf (TGoal (GScalar k)) = JOk (Some (int_stored k hi)).
Proof.
  intros E t deny buf k lo hi b Hk H64 Hb Hz.
  assert (U : forall z, f64_is b z -> z = (hi + 1)%Z).
  { intros z H. apply (f64_int_spec _ _ Hb) in Hz. apply (f64_int_spec _ _ Hb) in H. congruence. }
  pose proof (proj2 (f64_int_spec _ _ Hb) Hz) as I.
  destruct (de_number E t deny k lo hi (JF64 b) buf Hk Hb) as [(z & H & Hr & D)|[(_ & _ & _ & D)|(e & Hn & D)]];
    [apply U in H; lia|exact D|].
  exfalso. revert D. destruct k; try discriminate Hk; try discriminate H64; injection Hk as <- <-;
    cbn [de de_atom target_goal de_scalar]; unfold de_i64, de_u64; cbn [de_int]; rewrite I; discriminate.
Qed.
Print Assumptions C44_limit_double_refuted.

(** the double 3.0 for an int32, 1.5 refused, 2^63 for an int64 *)
Definition ex_json_externs : json_externs :=
  JsonExterns (fun l z => None) (fun _ _ => []) (fun _ => None) (fun _ _ => []) (fun _ => None) (fun l => l) (fun b => b) (fun b => b).
Example ex_f64_three : f64_is 4613937818241073152 3.
Proof. apply f64_int_spec; [reflexivity|]. vm_compute. reflexivity. Qed.
Example ex_three : exists v, de ex_json_externs wkt_tables true (JF64 4613937818241073152) false (TGoal (GScalar KInt32)) = JOk (Some v) /\ v = VI32 3.
Proof.
  exists (VI32 3). split; [|reflexivity].
  refine (proj2 (proj1 (C44_number_accepted ex_json_externs wkt_tables true false KInt32 (-2147483648) 2147483647 (JF64 4613937818241073152) eq_refl eq_refl _) (VI32 3)) _);
    [discriminate|].
  exists 3%Z. repeat split; [exact ex_f64_three|lia|lia].
Qed.
Example ex_half : de ex_json_externs wkt_tables true (JF64 4609434218613702656) false (TGoal (GScalar KInt32)) = JErr XNotInteger.
Proof. reflexivity. Qed.
Example ex_limit : f64_is 4890909195324358656 (2 ^ 63) /\
  de ex_json_externs wkt_tables true (JF64 4890909195324358656) false (TGoal (GScalar KInt64)) = JOk (Some (VI64 (2 ^ 63 - 1))).
Proof. split; [apply f64_int_spec; [reflexivity|vm_compute; reflexivity]|vm_compute; reflexivity]. Qed.

(** ** C45 *)

(** Bytes are written as standard base64 with padding. *)
Theorem C45_bytes_written : forall E t o any s, bytes_ok s ->
  exists text, ser_value E t o any (VBytes s) KBytes = JOk (JStr text) /\ b64_text false true s text.
Proof. intros E t o any s Hs. exists (b64_encode false true s). split; [reflexivity|now apply encode_spec]. Qed.
Print Assumptions C45_bytes_written.
(** Base64 of either alphabet, padded or not, is read as the bytes. *)
Theorem C45_bytes_read : forall E t deny buf url pad s text, bytes_ok s -> b64_text url pad s text ->
  de E t deny (JStr text) buf (TGoal (GScalar KBytes)) = JOk (Some (VBytes s)).
Proof.
  intros E t deny buf url pad s text Hs H. apply spec_encode in H; [|assumption]. subst text.
  cbn [de de_atom target_goal de_scalar]. now rewrite de_bytes_encode.
Qed.
Print Assumptions C45_bytes_read.
(** every byte string has a text in each of the four spellings *)
Example ex_b64_all url pad s : bytes_ok s -> exists text, b64_text url pad s text.
Proof. intros H. eexists. now apply encode_spec. Qed.
Example ex_b64 : b64_text true false [251; 255] (s2b "-_8").
Proof. change (s2b "-_8") with (b64_encode true false [251; 255]). apply encode_spec. repeat constructor. Qed.

(** ** C46 *)

(** The check accepts exactly the strings of the form
    YYYY-MM-DDTHH:MM:SS[.digits](Z|+HH:MM|-HH:MM). *)
Theorem C46_rfc3339_exact : forall s, strict_rfc3339 s = true <-> rfc3339 s.
Proof. exact strict_rfc3339_spec. Qed.
Print Assumptions C46_rfc3339_exact.
(** A string that is not of the form is refused as a Timestamp before anything
    else is tried. *)
Theorem C46_timestamp_strict : forall E t deny buf d s,
  wkt_of t d = Some WTimestamp -> ~ rfc3339 s -> de E t deny (JStr s) buf (TGoal (GMsg d)) = JErr XTimestamp.
Proof.
  intros E t deny buf d s Hw Hn. cbn [de de_atom target_goal]. rewrite Hw. cbn [de_wkt_atom].
  destruct (strict_rfc3339 s) eqn:Q; [|reflexivity]. apply strict_rfc3339_spec in Q. contradiction.
Qed.
Print Assumptions C46_timestamp_strict.
Example ex_rfc : rfc3339 (s2b "1972-06-30T23:59:60.5+01:00").
Proof. apply strict_rfc3339_spec. vm_compute. reflexivity. Qed.
Example ex_rfc_lower : ~ rfc3339 (s2b "1972-06-30T23:59:60z").
Proof. intros H. apply strict_rfc3339_spec in H. vm_compute in H. discriminate. Qed.
