(** C01, C03: encoding and its length. *)
From Coq Require Import String.
From Verif Require Import Base BaseProofs Wire WireProofs Unknown Value Descr Fields Codec DescrOk
  DescrProofs FieldsProofs LenProofs ExampleSchema.
Open Scope N_scope.

(** [rust_ok_msg]: u32/u64 payloads and unknown records are within the ranges
    their Rust types enforce.  Nothing is assumed about the stored values
    otherwise: encode and encoded_len either both panic or the length is exact
    (for encodings that fit a u64/usize). *)
Theorem C01_encoded_len_exact t m :
  tables_ok t -> rust_ok_msg m = true ->
  match len_msg t m, enc_msg t m with
  | Ok l, Ok bs => N.of_nat (length bs) < 2 ^ 64 -> l = N.of_nat (length bs)
  | Panic, Panic => True
  | _, _ => False
  end.
Proof. exact (msg_agree t m). Qed.
Print Assumptions C01_encoded_len_exact.

(** [deep_valid_msg]: every stored value is accepted by is_valid_for_field /
    is_valid_for_extension, recursively in nested messages. *)
Theorem C03_encode_total t m :
  tables_ok t -> deep_valid_msg t m = true -> rust_ok_msg m = true ->
  exists b l, enc_msg t m = Ok b /\ len_msg t m = Ok l /\
    (N.of_nat (length b) < two64 -> l = N.of_nat (length b)).
Proof. exact (msg_encode_fine t m). Qed.
Print Assumptions C03_encode_total.

Example C01_C03_example :
  deep_valid_msg ex ex_m = true /\ rust_ok_msg ex_m = true /\
  exists b, enc_msg ex ex_m = Ok b /\ length b = 145%nat.
Proof.
  split; [vm_compute; reflexivity|]. split; [vm_compute; reflexivity|].
  eexists. split; vm_compute; reflexivity.
Qed.
(** and a message that is not valid makes both panic, as the theorem allows *)
Example C01_panics :
  enc_msg ex (DM 0 [(1, SVal (VBool true))]) = Panic /\
  len_msg ex (DM 0 [(1, SVal (VBool true))]) = Panic.
Proof. split; vm_compute; reflexivity. Qed.
