(** What a failed merge leaves behind, said independently of the decoder's
    control flow.  Used by C56. *)
From Verif Require Import Base Wire Unknown Value Descr Fields Codec FieldsProofs RecordProofs.

(** one packed element: [c] is exactly the encoding of [x] *)
Definition element (t : tables) (ctx : nat) (f : fdl) (c : bytes) (x : value) : Prop :=
  merge_value 202 t f (kind_default t (fd_kind f)) (kind_wt (fd_kind f)) ctx c = DOk x [].

(** [left_msg t ctx m b m']: merging [b] into [m] with [ctx] levels of nesting
    left stops somewhere and leaves [m'].  All the complete records [cs] before
    the failing one have been merged ([runs (merge_field ctx t)], as in C06);
    then
    - the next key is not a key, or the failing record is not a declared field:
      nothing else has changed;
    - the failing record is of the field [f]: [f] holds what [left_value] says,
      the other members of its oneof have been cleared, and nothing else has
      changed. *)
Inductive left_msg (t : tables) : nat -> dynmsg -> bytes -> dynmsg -> Prop :=
| left_bad_key ctx m cs c m1 e :
    runs (merge_field ctx t) m cs m1 ->
    decode_key c = Err e ->
    left_msg t ctx m (concat cs ++ c) m1
| left_bad_unknown ctx m cs c m1 n w p e :
    runs (merge_field ctx t) m cs m1 ->
    decode_key c = Ok (n, w, p) -> find_desc t (dm_desc m1) n = None ->
    uf_decode_value ctx n w p = Err e ->
    left_msg t ctx m (concat cs ++ c) m1
| left_bad_field ctx m cs c m1 n w p f m' :
    runs (merge_field ctx t) m cs m1 ->
    decode_key c = Ok (n, w, p) -> find_desc t (dm_desc m1) n = Some f ->
    left_value t ctx f (get_field_value t m1 f) p (get_field_value t m' f) ->
    untouched t f m1 m' ->
    (forall g, sibling f (fd_number g) -> has_field t m' g = false) ->
    left_msg t ctx m (concat cs ++ c) m'
(** [left_value t ctx f v p v']: the record [p] of the field [f] could not be
    read over [v] and left [v']:
    - a string is emptied; any other scalar, a map, a list whose single element
      was bad, and a message whose contents were not reached are as they were;
    - a packed list has kept the elements which were complete;
    - a message is itself left as [left_msg] says, or its records were fine but
      did not end where its length or its end-group key said. *)
with left_value (t : tables) : nat -> fdl -> value -> bytes -> value -> Prop :=
| left_string ctx f s p : left_value t ctx f (VString s) p (VString [])
| left_as_was ctx f v p : (forall s, v <> VString s) -> left_value t ctx f v p v
| left_packed ctx f vs q cs rest more :
    Forall2 (element t ctx f) cs more ->
    left_value t ctx f (VList vs) (q ++ concat cs ++ rest) (VList (vs ++ more))
| left_message ctx f m q p m' :
    left_msg t ctx m p m' -> left_value t (S ctx) f (VMessage m) (q ++ p) (VMessage m')
| left_ends ctx f m q cs rest m' :
    runs (merge_field ctx t) m cs m' ->
    left_value t (S ctx) f (VMessage m) (q ++ concat cs ++ rest) (VMessage m').
