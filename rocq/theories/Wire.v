(** The wire primitives of [prost::encoding] (prost 0.14) that prost-reflect
    calls.  These functions are not in /repo: they are external code and part
    of the trusted base; the call sites in /repo are cited in [Codec.v] and
    [Unknown.v].  Only the two zigzag helpers at the end of
    dynamic/message.rs are defined by the crate itself. *)
From Verif Require Import Base.

(** prost::encoding::WireType *)
Inductive wt := WVarint | W64 | WLen | WStart | WEnd | W32.

Definition wt_num (w : wt) : N :=
  match w with WVarint => 0 | W64 => 1 | WLen => 2 | WStart => 3 | WEnd => 4 | W32 => 5 end.

(** WireType::try_from(u64) *)
Definition wt_of (n : N) : option wt :=
  match n with
  | 0 => Some WVarint | 1 => Some W64 | 2 => Some WLen
  | 3 => Some WStart | 4 => Some WEnd | 5 => Some W32
  | _ => None
  end.

Definition wt_eqb (a b : wt) : bool := wt_num a =? wt_num b.

(** ** Two's-complement casts *)
Definition two32 : N := 4294967296.
Definition two64 : N := 18446744073709551616.
Definition u32 (n : N) : N := n mod two32.
Definition u64 (n : N) : N := n mod two64.
(** [z as u32], [z as u64] for a signed value *)
Definition zu32 (z : Z) : N := Z.to_N (z mod 4294967296).
Definition zu64 (z : Z) : N := Z.to_N (z mod 18446744073709551616).
(** [n as i32], [n as i64] for an unsigned value *)
Definition si32 (n : N) : Z :=
  let m := Z.of_N (u32 n) in
  if (m <? 2147483648)%Z then m else (m - 4294967296)%Z.
Definition si64 (n : N) : Z :=
  let m := Z.of_N (u64 n) in
  if (m <? 9223372036854775808)%Z then m else (m - 18446744073709551616)%Z.

Definition i32_ok (z : Z) : bool := ((-2147483648 <=? z) && (z <=? 2147483647))%Z.
Definition i64_ok (z : Z) : bool :=
  ((-9223372036854775808 <=? z) && (z <=? 9223372036854775807))%Z.
Definition u32_ok (n : N) : bool := n <? two32.
Definition u64_ok (n : N) : bool := n <? two64.

(** ** Varints *)

(** encode_varint: at most ten groups of seven bits, low group first. *)
Fixpoint encode_varint_loop (n : nat) (v : N) : bytes :=
  match n with
  | O => []
  | S n' => if v <? 128 then [v] else (v mod 128 + 128) :: encode_varint_loop n' (v / 128)
  end.
Definition encode_varint (v : N) : bytes := encode_varint_loop 10 v.

(** decode_varint: up to ten bytes; the tenth must be below 2. *)
Fixpoint decode_varint_loop (n : nat) (buf : bytes) : res (N * bytes) :=
  match n with
  | O => Err EVarint
  | S n' =>
      match buf with
      | [] => Err EVarint
      | b :: r =>
          if b <? 128 then
            (match n' with
             | O => if b <? 2 then Ok (b, r) else Err EVarint
             | S _ => Ok (b, r)
             end)
          else
            let! (v, r') := decode_varint_loop n' r in
            Ok (b mod 128 + 128 * v, r')
      end
  end.
Definition decode_varint (buf : bytes) : res (N * bytes) := decode_varint_loop 10 buf.

(** encoded_len_varint: ((((v | 1).leading_zeros() ^ 63) * 9 + 73) / 64);
    (leading_zeros ^ 63) is the index of the highest set bit. *)
Definition encoded_len_varint (v : N) : N := (N.log2 (N.lor v 1) * 9 + 73) / 64.

(** ** Keys *)

(** encode_key: (tag << 3) | wire_type, in u32 *)
Definition encode_key (tag : N) (w : wt) : bytes := encode_varint (u32 (tag * 8) + wt_num w).

(** key_len: encoded_len_varint(u64::from(tag << 3)) *)
Definition key_len (tag : N) : N := encoded_len_varint (u32 (tag * 8)).

(** decode_key: the key must fit u32, have a known wire type and a tag >= 1 *)
Definition decode_key (buf : bytes) : res (N * wt * bytes) :=
  let! (key, r) := decode_varint buf in
  if two32 <=? key then Err EKey
  else match wt_of (key mod 8) with
       | None => Err EKey
       | Some w => if key / 8 <? 1 then Err EKey else Ok (key / 8, w, r)
       end.

(** check_wire_type *)
Definition check_wt (expected actual : wt) : res unit :=
  if wt_eqb expected actual then Ok tt else Err EWireType.

(** ** Fixed-width little-endian values *)
Fixpoint le_encode (n : nat) (v : N) : bytes :=
  match n with
  | O => []
  | S n' => v mod 256 :: le_encode n' (v / 256)
  end.
Fixpoint le_value (l : bytes) : N :=
  match l with
  | [] => 0
  | b :: r => b + 256 * le_value r
  end.

(** [n] raw bytes off the front; "buffer underflow" if there are fewer *)
Definition take_bytes (n : N) (buf : bytes) : res (bytes * bytes) :=
  if N.of_nat (length buf) <? n then Err EUnderflow
  else Ok (firstn (N.to_nat n) buf, skipn (N.to_nat n) buf).

Definition le_decode (n : N) (buf : bytes) : res (N * bytes) :=
  let! (bs, r) := take_bytes n buf in Ok (le_value bs, r).

(** bytes::merge after the wire-type check: varint length, then the bytes *)
Definition read_delimited (buf : bytes) : res (bytes * bytes) :=
  let! (len, r) := decode_varint buf in take_bytes len r.

(** bytes::encode body: varint length, then the bytes *)
Definition write_delimited (s : bytes) : bytes := encode_varint (N.of_nat (length s)) ++ s.
Definition delimited_len (s : bytes) : N :=
  encoded_len_varint (N.of_nat (length s)) + N.of_nat (length s).

(** ** Zigzag *)

(** prost sint32/sint64 to_uint64:
    ((value << 1) ^ (value >> 31)) as u32 — the shift wraps in i32/i64. *)
Definition zigzag32 (z : Z) : N := zu32 (Z.lxor (si32 (zu32 (2 * z))) (Z.shiftr z 31)).
Definition zigzag64 (z : Z) : N := zu64 (Z.lxor (si64 (zu64 (2 * z))) (Z.shiftr z 63)).
(** The crate's own from_sint32/from_sint64, used for packed lists
    (dynamic/message.rs:712-714, 718-720). *)
Definition from_sint32 (z : Z) : N := zu32 (Z.lxor (si32 (zu32 (2 * z))) (Z.shiftr z 31)).
Definition from_sint64 (z : Z) : N := zu64 (Z.lxor (si64 (zu64 (2 * z))) (Z.shiftr z 63)).
(** prost sint32/sint64 from_uint64:
    let v = v as u32; ((v >> 1) as i32) ^ (-((v & 1) as i32)) *)
Definition unzigzag32 (n : N) : Z :=
  let v := u32 n in Z.lxor (si32 (v / 2)) (- Z.of_N (v mod 2))%Z.
Definition unzigzag64 (n : N) : Z :=
  let v := u64 n in Z.lxor (si64 (v / 2)) (- Z.of_N (v mod 2))%Z.

(** ** UTF-8 (std::str::from_utf8) *)
Definition in_range (lo hi b : N) : bool := (lo <=? b) && (b <=? hi).
Definition cont (b : N) : bool := in_range 128 191 b.
Fixpoint utf8_valid (l : bytes) : bool :=
  match l with
  | [] => true
  | b0 :: r0 =>
      if b0 <? 128 then utf8_valid r0
      else if in_range 194 223 b0 then
        match r0 with
        | b1 :: r1 => cont b1 && utf8_valid r1
        | _ => false
        end
      else if in_range 224 239 b0 then
        match r0 with
        | b1 :: b2 :: r2 =>
            (if b0 =? 224 then in_range 160 191 b1
             else if b0 =? 237 then in_range 128 159 b1
             else cont b1)
            && cont b2 && utf8_valid r2
        | _ => false
        end
      else if in_range 240 244 b0 then
        match r0 with
        | b1 :: b2 :: b3 :: r3 =>
            (if b0 =? 240 then in_range 144 191 b1
             else if b0 =? 244 then in_range 128 143 b1
             else cont b1)
            && cont b2 && cont b3 && utf8_valid r3
        | _ => false
        end
      else false
  end.

(** ** DecodeContext: the recursion budget (starts at 100). *)
Definition recursion_limit : N := 100.

(** Outcome of decoding into a mutable target: on error the target keeps the
    partial update. *)
Inductive dres (S : Type) : Type :=
| DOk (s : S) (rest : bytes)
| DErr (e : derr) (s : S)
| DPanic
| DFuel.
Arguments DOk {S} s rest.
Arguments DErr {S} e s.
Arguments DPanic {S}.
Arguments DFuel {S}.

(** Lift a primitive read: on error the target keeps [dflt]. *)
Definition dlift {A S} (dflt : S) (f : A -> S) (r : res (A * bytes)) : dres S :=
  match r with
  | Ok (a, rest) => DOk (f a) rest
  | Err e => DErr e dflt
  | Panic => DPanic
  | Fuel => DFuel
  end.

(** The [while buf.remaining() > limit { merge(..)? }] loop of merge_loop,
    followed by its exact-length check.  [k] bounds the iterations. *)
Fixpoint loop_until {S} (k : nat) (step : S -> bytes -> dres S) (limit : nat)
  (s : S) (buf : bytes) : dres S :=
  if (length buf <=? limit)%nat then
    (if (length buf =? limit)%nat then DOk s buf else DErr EDelim s)
  else match k with
       | O => DFuel
       | Datatypes.S k' =>
           match step s buf with
           | DOk s' r => loop_until k' step limit s' r
           | DErr e s' => DErr e s'
           | DPanic => DPanic
           | DFuel => DFuel
           end
       end.

(** merge_loop: varint length, underflow check, loop. *)
Definition merge_loop {S} (step : S -> bytes -> dres S) (s : S) (buf : bytes) : dres S :=
  match decode_varint buf with
  | Ok (len, r) =>
      if N.of_nat (length r) <? len then DErr EUnderflow s
      else loop_until (Datatypes.S (length r)) step (length r - N.to_nat len) s r
  | Err e => DErr e s
  | Panic => DPanic
  | Fuel => DFuel
  end.

(** The step of a length-delimited message: read a key, then the field. *)
Definition keyed_step {S} (step : S -> N -> wt -> bytes -> dres S) (s : S) (buf : bytes) : dres S :=
  match decode_key buf with
  | Ok (n, w, r) => step s n w r
  | Err e => DErr e s
  | Panic => DPanic
  | Fuel => DFuel
  end.

(** The loop of group::merge (after the wire-type and recursion checks): keys
    are read until an EndGroup key, whose tag must match. *)
Fixpoint group_loop {S} (k : nat) (step : S -> N -> wt -> bytes -> dres S) (tag : N)
  (s : S) (buf : bytes) : dres S :=
  match k with
  | O => DFuel
  | Datatypes.S k' =>
      match decode_key buf with
      | Ok (n, w, r) =>
          if wt_eqb w WEnd then (if n =? tag then DOk s r else DErr EGroupTag s)
          else match step s n w r with
               | DOk s' r' => group_loop k' step tag s' r'
               | DErr e s' => DErr e s'
               | DPanic => DPanic
               | DFuel => DFuel
               end
      | Err e => DErr e s
      | Panic => DPanic
      | Fuel => DFuel
      end
  end.

(** Message::merge: keys and fields until the buffer is empty. *)
Fixpoint stream_loop {S} (k : nat) (step : S -> N -> wt -> bytes -> dres S)
  (s : S) (buf : bytes) : dres S :=
  match buf with
  | [] => DOk s []
  | _ :: _ =>
      match k with
      | O => DFuel
      | Datatypes.S k' =>
          match decode_key buf with
          | Ok (n, w, r) =>
              match step s n w r with
              | DOk s' r' => stream_loop k' step s' r'
              | DErr e s' => DErr e s'
              | DPanic => DPanic
              | DFuel => DFuel
              end
          | Err e => DErr e s
          | Panic => DPanic
          | Fuel => DFuel
          end
      end
  end.

(** skip_field: consumes one field of any wire type; groups recurse and count
    against the recursion budget. [ctx] is the remaining budget; the recursion
    is structural in it. *)
Fixpoint skip_field (ctx : nat) (w : wt) (tag : N) (buf : bytes) : res bytes :=
  match ctx with
  | O => Err ERecursion
  | S ctx' =>
      match w with
      | WVarint => let! (_, r) := decode_varint buf in Ok r
      | W32 => let! (_, r) := take_bytes 4 buf in Ok r
      | W64 => let! (_, r) := take_bytes 8 buf in Ok r
      | WLen => let! (_, r) := read_delimited buf in Ok r
      | WStart =>
          match group_loop (S (length buf))
                  (fun (_ : unit) n w' b =>
                     match skip_field ctx' w' n b with
                     | Ok r => DOk tt r
                     | Err e => DErr e tt
                     | Panic => DPanic
                     | Fuel => DFuel
                     end) tag tt buf with
          | DOk _ r => Ok r
          | DErr e _ => Err e
          | DPanic => Panic
          | DFuel => Fuel
          end
      | WEnd => Err EGroupTag
      end
  end.
