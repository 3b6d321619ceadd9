(** The option messages of descriptors, which keep the bytes they were decoded
    from (prost-reflect/src/descriptor/types.rs:174-177, 497-590). *)
From Verif Require Import Base Wire.
Open Scope N_scope.

(** types.rs:174-177: struct Options<T> { encoded, value } *)
Record options (T : Type) := Options { o_encoded : bytes; o_value : T }.
Arguments Options {T} o_encoded o_value.
Arguments o_encoded {T} o.
Arguments o_value {T} o.

Section Options.
  Context {T : Type}.
  (** T::merge_field of the prost message type T, with the recursion budget;
      T comes from prost-types, so it is a parameter here. *)
  Variable field : nat -> T -> N -> wt -> bytes -> dres T.
  (** T::default() *)
  Variable dflt : T.
  (** T::encode_to_vec *)
  Variable encode : T -> bytes.

  (** impl Default (derived) for Options *)
  Definition opt_default : options T := Options [] dflt.
  (** types.rs:501-506 from_prost *)
  Definition opt_from_prost (v : T) : options T := Options (encode v) v.
  (** types.rs:508-510 to_prost *)
  Definition opt_to_prost (o : options T) : T := o_value o.
  (** types.rs:526-531 encode_raw *)
  Definition opt_encode (o : options T) : bytes := o_encoded o.
  (** types.rs:582-584 encoded_len *)
  Definition opt_len (o : options T) : N := N.of_nat (length (o_encoded o)).
  (** types.rs:586-589 clear; T::clear resets to the default *)
  Definition opt_clear (_ : options T) : options T := Options [] dflt.

  (** types.rs:533-580 merge_field.  The key is written again by encode_key;
      CopyBufAdapter::advance appends every byte that skip_field consumes to
      [encoded]; then T::merge_field reads those copied bytes.  Simplification:
      when skip_field fails the real [encoded] may also hold the bytes read
      before the failure; the decode as a whole fails then. *)
  Definition opt_merge_field (ctx : nat) (o : options T) (tag : N) (w : wt) (buf : bytes)
    : dres (options T) :=
    let keyed := o_encoded o ++ encode_key tag w in
    match skip_field ctx w tag buf with
    | Ok r =>
        let copied := firstn (length buf - length r) buf in
        match field ctx (o_value o) tag w copied with
        | DOk v _ => DOk (Options (keyed ++ copied) v) r
        | DErr e v => DErr e (Options (keyed ++ copied) v)
        | DPanic => DPanic
        | DFuel => DFuel
        end
    | Err e => DErr e (Options keyed (o_value o))
    | Panic => DPanic
    | Fuel => DFuel
    end.

  (** Message::merge of a whole buffer (prost; ctx starts at 100) *)
  Definition opt_merge (ctx : nat) (o : options T) (buf : bytes) : dres (options T) :=
    stream_loop (length buf) (opt_merge_field ctx) o buf.

  (** prost::encoding::message::merge of one occurrence of the options field
      in a descriptor message: a length, then that many bytes of fields. *)
  Definition opt_merge_embedded (ctx : nat) (o : options T) (buf : bytes) : dres (options T) :=
    merge_loop (keyed_step (opt_merge_field ctx)) o buf.

  (** prost::encoding::message::encode of the options field, after its key *)
  Definition opt_encode_embedded (o : options T) : bytes :=
    encode_varint (opt_len o) ++ opt_encode o.
End Options.
