(** Unknown fields: prost-reflect/src/dynamic/unknown.rs. *)
From Verif Require Import Base Wire.

(** UnknownField / UnknownFieldValue / UnknownFieldSet (unknown.rs:18-42); an
    UnknownFieldSet is its Vec of fields. *)
Inductive ufield :=
| UVarint (num : N) (v : N)
| U64 (num : N) (bs : bytes)
| ULen (num : N) (bs : bytes)
| UGroup (num : N) (fs : list ufield)
| U32 (num : N) (bs : bytes).

(** UnknownField::number (unknown.rs:46-48) *)
Definition uf_number (u : ufield) : N :=
  match u with
  | UVarint n _ | U64 n _ | ULen n _ | UGroup n _ | U32 n _ => n
  end.

(** UnknownField::wire_type (unknown.rs:51-59) *)
Definition uf_wire_type (u : ufield) : wt :=
  match u with
  | UVarint _ _ => WVarint
  | U64 _ _ => W64
  | ULen _ _ => WLen
  | UGroup _ _ => WStart
  | U32 _ _ => W32
  end.

(** UnknownField::encode (unknown.rs:66-90); group::encode writes a StartGroup
    key, the fields (UnknownFieldSet::encode_raw, unknown.rs:239-246) and an
    EndGroup key. *)
Fixpoint uf_encode (u : ufield) : bytes :=
  match u with
  | UVarint n v => encode_key n WVarint ++ encode_varint v
  | U64 n bs => encode_key n W64 ++ bs
  | ULen n bs => encode_key n WLen ++ write_delimited bs
  | UGroup n fs =>
      encode_key n WStart ++ flat_map uf_encode fs ++ encode_key n WEnd
  | U32 n bs => encode_key n W32 ++ bs
  end.
Definition ufs_encode (us : list ufield) : bytes := flat_map uf_encode us.

(** UnknownField::encoded_len (unknown.rs:181-193); group::encoded_len is
    2 * key_len + message.encoded_len(). *)
Fixpoint uf_len (u : ufield) : N :=
  match u with
  | UVarint n v => key_len n + encoded_len_varint v
  | U64 n bs => key_len n + N.of_nat (length bs)
  | ULen n bs => key_len n + delimited_len bs
  | UGroup n fs => 2 * key_len n + fold_right (fun u' a => uf_len u' + a) 0 fs
  | U32 n bs => key_len n + N.of_nat (length bs)
  end.
Definition ufs_len (us : list ufield) : N := fold_right (fun u a => uf_len u + a) 0 us.

(** UnknownField::decode_value (unknown.rs:137-178). [ctx] is the recursion
    budget of DecodeContext; only groups consume it (group::merge).  The
    [EndGroup] arm fails in check_wire_type. *)
Fixpoint uf_decode_value (ctx : nat) (num : N) (w : wt) (buf : bytes) : res (ufield * bytes) :=
  match w with
  | WVarint => let! (v, r) := decode_varint buf in Ok (UVarint num v, r)
  | W64 => let! (v, r) := le_decode 8 buf in Ok (U64 num (le_encode 8 v), r)
  | WLen => let! (bs, r) := read_delimited buf in Ok (ULen num bs, r)
  | WStart =>
      match ctx with
      | O => Err ERecursion
      | S ctx' =>
          match group_loop (S (length buf))
                  (fun us n w' b =>
                     match uf_decode_value ctx' n w' b with
                     | Ok (u, r) => DOk (us ++ [u]) r
                     | Err e => DErr e us
                     | Panic => DPanic
                     | Fuel => DFuel
                     end) num [] buf with
          | DOk us r => Ok (UGroup num us, r)
          | DErr e _ => Err e
          | DPanic => Panic
          | DFuel => Fuel
          end
      end
  | WEnd => Err EWireType
  | W32 => let! (v, r) := le_decode 4 buf in Ok (U32 num (le_encode 4 v), r)
  end.

(** UnknownField::decode (unknown.rs:109-115) *)
Definition uf_decode (ctx : nat) (buf : bytes) : res (ufield * bytes) :=
  let! (num, w, r) := decode_key buf in uf_decode_value ctx num w r.

(** ** Vocabulary for the theorems *)

(** Shape of the unknown fields the API can produce (there is no public
    constructor, so every UnknownField comes from a decode). *)
Fixpoint uf_ok (u : ufield) : Prop :=
  (1 <= uf_number u < 536870912) /\
  match u with
  | UVarint _ v => v < two64
  | U64 _ bs => bytes_ok bs /\ length bs = 8%nat
  | ULen _ bs => bytes_ok bs
  | UGroup _ fs => (fix all l := match l with [] => True | u' :: l' => uf_ok u' /\ all l' end) fs
  | U32 _ bs => bytes_ok bs /\ length bs = 4%nat
  end.

(** Group nesting: 0 for a field that is not a group. *)
Fixpoint uf_depth (u : ufield) : nat :=
  match u with
  | UGroup _ fs => S (fold_right (fun u' a => Nat.max (uf_depth u') a) O fs)
  | _ => O
  end.
Definition ufs_depth (us : list ufield) : nat :=
  fold_right (fun u a => Nat.max (uf_depth u) a) O us.

(** Equality is Rust's derived PartialEq, i.e. structural. *)
Fixpoint uf_eqb (a b : ufield) : bool :=
  match a, b with
  | UVarint n v, UVarint n' v' => (n =? n') && (v =? v')
  | U64 n v, U64 n' v' => (n =? n') && bytes_eqb v v'
  | ULen n v, ULen n' v' => (n =? n') && bytes_eqb v v'
  | UGroup n fs, UGroup n' fs' =>
      (n =? n') &&
      (fix eqs (l l' : list ufield) : bool :=
         match l, l' with
         | [], [] => true
         | x :: r, y :: r' => uf_eqb x y && eqs r r'
         | _, _ => false
         end) fs fs'
  | U32 n v, U32 n' v' => (n =? n') && bytes_eqb v v'
  | _, _ => false
  end.
Fixpoint ufs_eqb (l l' : list ufield) : bool :=
  match l, l' with
  | [], [] => true
  | x :: r, y :: r' => uf_eqb x y && ufs_eqb r r'
  | _, _ => false
  end.
