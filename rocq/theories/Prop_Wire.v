(** C52: zigzag and varint primitives. *)
From Verif Require Import Base Wire WireProofs.

(** The crate's sint32 mapping (packed lists) is the textbook zigzag code, the
    decoder inverts it, it lands in u32, and every u32 is hit. *)
Theorem C52_sint32_bijection :
  (forall z, (- 2147483648 <= z <= 2147483647)%Z ->
     Z.of_N (from_sint32 z) = (if z <? 0 then -2 * z - 1 else 2 * z)%Z /\
     from_sint32 z < 4294967296 /\ unzigzag32 (from_sint32 z) = z) /\
  (forall n, n < 4294967296 ->
     (- 2147483648 <= unzigzag32 n <= 2147483647)%Z /\ from_sint32 (unzigzag32 n) = n).
Proof. exact sint32_bijection. Qed.
Print Assumptions C52_sint32_bijection.

Theorem C52_sint64_bijection :
  (forall z, (- 9223372036854775808 <= z <= 9223372036854775807)%Z ->
     Z.of_N (from_sint64 z) = (if z <? 0 then -2 * z - 1 else 2 * z)%Z /\
     from_sint64 z < 18446744073709551616 /\ unzigzag64 (from_sint64 z) = z) /\
  (forall n, n < 18446744073709551616 ->
     (- 9223372036854775808 <= unzigzag64 n <= 9223372036854775807)%Z /\
     from_sint64 (unzigzag64 n) = n).
Proof. exact sint64_bijection. Qed.
Print Assumptions C52_sint64_bijection.

(** The packed-list mapping is the one of single values. *)
Theorem C52_packed_agrees z : from_sint32 z = zigzag32 z /\ from_sint64 z = zigzag64 z.
Proof. exact (conj (from_sint32_zigzag z) (from_sint64_zigzag z)). Qed.
Print Assumptions C52_packed_agrees.

(** Varints round trip with anything behind them, and their announced length
    is the written one. *)
Theorem C52_varint_round_trip v rest :
  v < 18446744073709551616 ->
  decode_varint (encode_varint v ++ rest) = Ok (v, rest) /\
  encoded_len_varint v = N.of_nat (length (encode_varint v)).
Proof. exact (varint_round_trip v rest). Qed.
Print Assumptions C52_varint_round_trip.

Example C52_ex1 : from_sint32 (-2147483648) = 4294967295 /\ from_sint32 (-1) = 1 /\ from_sint32 1 = 2.
Proof. repeat split; vm_compute; reflexivity. Qed.
Example C52_ex2 : encode_varint 300 = [172; 2] /\ encoded_len_varint 18446744073709551615 = 10.
Proof. split; vm_compute; reflexivity. Qed.
