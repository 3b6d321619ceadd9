(** What it means for two messages to agree, in terms of what the API shows:
    has_*, get_*, unknown_fields. *)
From Verif Require Import Base Wire Unknown Value Descr Fields.

Definition scalar (v : value) : bool :=
  match v with VMessage _ | VList _ | VMap _ => false | _ => true end.

(** [same t v v']: the two values cannot be told apart through the API.
    Scalars are equal (floats bit for bit), lists agree element by element,
    maps have the same keys with agreeing values, messages have the same
    descriptor, the same set fields and extensions, agreeing values for those
    that are set, equal results of reading those that are not, and the same
    unknown fields. *)
Inductive same (t : tables) : value -> value -> Prop :=
| same_scalar v : scalar v = true -> same t v v
| same_list l l' : Forall2 (same t) l l' -> same t (VList l) (VList l')
| same_map l l' :
    length l = length l' ->
    (forall k, map_get k l = None <-> map_get k l' = None) ->
    (forall k a b, map_get k l = Some a -> map_get k l' = Some b -> same t a b) ->
    same t (VMap l) (VMap l')
| same_message m m' :
    dm_desc m = dm_desc m' ->
    (forall n f, find_desc t (dm_desc m) n = Some f -> has_field t m f = has_field t m' f) ->
    (forall n f, find_desc t (dm_desc m) n = Some f -> has_field t m f = true ->
       same t (get_field_value t m f) (get_field_value t m' f)) ->
    (forall n f, find_desc t (dm_desc m) n = Some f -> has_field t m f = false ->
       get_field_value t m f = get_field_value t m' f) ->
    msg_unknown_fields m = msg_unknown_fields m' ->
    same t (VMessage m) (VMessage m').

Definition same_msg (t : tables) (m m' : dynmsg) : Prop := same t (VMessage m) (VMessage m').

(** The one thing the binary format loses: a float field without presence whose
    value is the zero of the other sign than its default is not written (it is
    [==] to the default) and reads back as the default. *)
Definition zero_kept (t : tables) (f : fdl) (v : value) : bool :=
  fd_presence f ||
  match v, fd_default_value t f with
  | VF32 a, VF32 b => (a =? b) || negb (f32_zero a && f32_zero b)
  | VF64 a, VF64 b => (a =? b) || negb (f64_zero a && f64_zero b)
  | _, _ => true
  end.

(** ... at every field and map value of the message *)
Fixpoint zeros_kept (t : tables) (v : value) (f : fdl) {struct v} : bool :=
  match v with
  | VMessage (DM d fs) =>
      forallb (fun kv =>
        match snd kv with
        | SVal v' =>
            match find_desc t d (fst kv) with
            | Some g => zero_kept t g v' && zeros_kept t v' g
            | None => true
            end
        | _ => true
        end) fs
  | VList vs => forallb (fun x => zeros_kept t x f) vs
  | VMap kvs =>
      match kind_msg (fd_kind f) with
      | Some e => match entry_value t e with
                  | Some vf => forallb (fun kv => zero_kept t vf (snd kv) && zeros_kept t (snd kv) vf) kvs
                  | None => true
                  end
      | None => true
      end
  | _ => true
  end.
Definition zeros_kept_msg (t : tables) (m : dynmsg) : bool :=
  forallb (fun kv =>
    match snd kv with
    | SVal v' =>
        match find_desc t (dm_desc m) (fst kv) with
        | Some g => zero_kept t g v' && zeros_kept t v' g
        | None => true
        end
    | _ => true
    end) (dm_fields m).
