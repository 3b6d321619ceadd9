(** C20: unknown field values round trip. *)
From Verif Require Import Base Wire WireProofs Unknown UnknownProofs.

(** [uf_ok]: numbers 1..2^29-1, varints below 2^64, 8/4-byte fixed payloads.
    [uf_len_ok]: the encoding is shorter than 2^64 bytes.
    Decoding an encoded field, with anything behind it, gives the field back
    and leaves the rest. *)
Theorem C20_decode_encode u ctx rest :
  uf_ok u -> uf_len_ok u -> (uf_depth u <= ctx)%nat ->
  uf_decode ctx (uf_encode u ++ rest) = Ok (u, rest).
Proof. exact (uf_decode_encode u ctx rest). Qed.
Print Assumptions C20_decode_encode.

(** encoded_len is the number of bytes written. *)
Theorem C20_encoded_len u :
  uf_ok u -> uf_len_ok u -> uf_len u = N.of_nat (length (uf_encode u)).
Proof. exact (uf_len_correct u). Qed.
Print Assumptions C20_encoded_len.

Theorem C20_encoded_len_set us :
  Forall uf_ok us -> ufs_len_ok us -> ufs_len us = N.of_nat (length (ufs_encode us)).
Proof. exact (ufs_len_correct us). Qed.
Print Assumptions C20_encoded_len_set.

(** Every field the decoder returns satisfies the hypotheses above (so they
    hold of every UnknownField a user can get hold of), the decoder consumes a
    non-empty prefix, and never panics. *)
Theorem C20_decoded_is_well_formed ctx b :
  bytes_ok b ->
  match uf_decode ctx b with
  | Ok (u, rest) =>
      uf_ok u /\ (uf_depth u <= ctx)%nat /\
      exists used, b = used ++ rest /\ (1 <= length used)%nat
  | Err _ => True
  | Panic | Fuel => False
  end.
Proof. exact (uf_decode_good ctx b). Qed.
Print Assumptions C20_decoded_is_well_formed.

Definition ex_uf : ufield :=
  UGroup 5 [UVarint 1 300; UGroup 2 [ULen 3 [104; 105]; U32 4 [1; 2; 3; 4]]; U64 9 [0;0;0;0;0;0;0;255]].
Example C20_ex : uf_ok ex_uf /\ uf_len_ok ex_uf /\ (uf_depth ex_uf <= 100)%nat.
Proof.
  split; [|split].
  - cbn. unfold bytes_ok. repeat (constructor; try lia).
  - unfold uf_len_ok. vm_compute. reflexivity.
  - vm_compute. lia.
Qed.
(** Beyond the recursion budget the decoder reports an error. *)
Example C20_limit : uf_decode 1 (uf_encode ex_uf) = Err ERecursion.
Proof. vm_compute. reflexivity. Qed.
