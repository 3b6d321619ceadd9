(** Well-formedness of descriptor tables and of dynamic values: the hypotheses
    of the theorems about dynamic messages.

    [tables_ok] is what DescriptorPool building establishes (proved of the
    builder model: C57, Prop_Bridge.v).  [schema_okb] collects what protoc
    guarantees of real schemas but the crate's builder does not check. *)
From Verif Require Import Base Wire Unknown Value Descr Fields.

Fixpoint forallb_i_from {A} (i : nat) (p : nat -> A -> bool) (l : list A) : bool :=
  match l with
  | [] => true
  | a :: r => p i a && forallb_i_from (S i) p r
  end.
Definition forallb_i {A} := @forallb_i_from A 0.

Definition tag_okb (n : N) : bool := (1 <=? n) && (n <? 536870912).

Fixpoint bt_sortedb {A} (l : list (N * A)) : bool :=
  match l with
  | [] => true
  | (k, _) :: r => forallb (fun kv => k <? fst kv) r && bt_sortedb r
  end.

(** A value a Rust program can hold for a scalar kind: right constructor, and
    the number ranges / UTF-8 that Rust's own types enforce. *)
Definition sc_okb (k : kind) (v : value) : bool :=
  match v, k with
  | VBool _, KBool => true
  | VI32 z, (KInt32 | KSint32 | KSfixed32) => i32_ok z
  | VI64 z, (KInt64 | KSint64 | KSfixed64) => i64_ok z
  | VU32 n, (KUint32 | KFixed32) => u32_ok n
  | VU64 n, (KUint64 | KFixed64) => u64_ok n
  | VF32 b, KFloat => u32_ok b
  | VF64 b, KDouble => u64_ok b
  | VString s, KString => bytes_okb s && utf8_valid s
  | VBytes s, KBytes => bytes_okb s
  | VEnum z, KEnum _ => i32_ok z
  | _, _ => false
  end.
Definition mk_okb (k : kind) (key : mapkey) : bool :=
  match key, k with
  | MKBool _, KBool => true
  | MKI32 z, (KInt32 | KSint32 | KSfixed32) => i32_ok z
  | MKI64 z, (KInt64 | KSint64 | KSfixed64) => i64_ok z
  | MKU32 n, (KUint32 | KFixed32) => u32_ok n
  | MKU64 n, (KUint64 | KFixed64) => u64_ok n
  | MKString s, KString => bytes_okb s && utf8_valid s
  | _, _ => false
  end.

(** kinds refer to existing messages and to enums with at least one value *)
Definition kind_okb (t : tables) (k : kind) : bool :=
  match k with
  | KMessage i | KGroup i => (i <? length (t_messages t))%nat
  | KEnum e =>
      match nth_error (t_enums t) e with
      | Some en => negb (length (e_values en) =? 0)%nat
                   && forallb (fun v => i32_ok (ev_number v)) (e_values en)
      | None => false
      end
  | _ => true
  end.

Definition is_repeated (f : fdl) : bool := card_eqb (fd_card f) Repeated.
Definition is_msg_kind (k : kind) : bool := match kind_msg k with Some _ => true | None => false end.

Definition fdl_okb (t : tables) (f : fdl) : bool :=
  tag_okb (fd_number f) && kind_okb t (fd_kind f)
  && (negb (fd_packed f) || (is_repeated f && fd_is_packable f))
  && (negb (is_msg_kind (fd_kind f)) || is_repeated f || fd_presence f)
  && match fd_default f with Some v => sc_okb (fd_kind f) v | None => true end.

Definition nat_opt_eqb (a : option nat) (b : nat) : bool :=
  match a with Some x => (x =? b)%nat | None => false end.

Definition msg_okb (t : tables) (d : nat) (m : message_inner) : bool :=
  bt_sortedb (m_numbers m)
  && forallb (fun ni => match nth_error (m_fields m) (snd ni) with
                        | Some f => f_number f =? fst ni
                        | None => false
                        end) (m_numbers m)
  && forallb_i (fun i f =>
       nat_opt_eqb (bt_get (f_number f) (m_numbers m)) i
       && nat_opt_eqb (assoc_s (id_name (f_id f)) (m_names m)) i
       && nat_opt_eqb (assoc_s (f_json f) (m_jsons m)) i
       && fdl_okb t (field_view t m f)
       && match f_oneof f with
          | None => true
          | Some o => match nth_error (m_oneofs m) o with
                      | Some oi => existsb (Nat.eqb i) (o_fields oi)
                      | None => false
                      end
          end) (m_fields m)
  && forallb (fun ni => match nth_error (m_fields m) (snd ni) with
                        | Some f => bytes_eqb (id_name (f_id f)) (fst ni)
                        | None => false
                        end) (m_names m)
  && forallb (fun ni => match nth_error (m_fields m) (snd ni) with
                        | Some f => bytes_eqb (f_json f) (fst ni)
                        | None => false
                        end) (m_jsons m)
  && forallb_i (fun o oi =>
       forallb (fun i => match nth_error (m_fields m) i with
                         | Some f => nat_opt_eqb (f_oneof f) o
                         | None => false
                         end) (o_fields oi)) (m_oneofs m)
  && forallb (fun x => match nth_error (t_exts t) x with
                       | Some e => (x_extendee e =? d)%nat && fdl_okb t (ext_view t e)
                       | None => false
                       end) (m_exts m).

Definition tables_okb (t : tables) : bool := forallb_i (msg_okb t) (t_messages t).

(** A map entry message has a key field 1 of a key kind and a value field 2,
    neither repeated. *)
Definition entry_okb (t : tables) (e : nat) : bool :=
  match entry_key t e, entry_value t e with
  | Some kf, Some vf =>
      match mk_default (fd_kind kf) with Some _ => true | None => false end
      && negb (is_repeated kf) && negb (is_repeated vf)
  | _, _ => false
  end.

(** repeated fields have no presence (i.e. are not in a oneof nor
    proto3_optional), and map fields point at proper map entries *)
Definition shape_okb (t : tables) (f : fdl) : bool :=
  (negb (is_repeated f) || negb (fd_presence f))
  && (negb (fd_is_map f)
      || match kind_msg (fd_kind f) with Some e => entry_okb t e | None => false end).

(** no extension has the number of a declared field *)
Definition schema_msg_okb (t : tables) (d : nat) (m : message_inner) : bool :=
  forallb (fun f => shape_okb t (field_view t m f)) (m_fields m)
  && forallb (fun x => match nth_error (t_exts t) x with
                       | Some e =>
                           shape_okb t (ext_view t e)
                           && match bt_get (x_number e) (m_numbers m) with
                              | Some _ => false | None => true end
                       | None => true
                       end) (m_exts m).
Definition schema_okb (t : tables) : bool := forallb_i (schema_msg_okb t) (t_messages t).

Definition tables_ok (t : tables) : Prop := tables_okb t = true.
Definition wf (t : tables) : Prop := tables_okb t = true /\ schema_okb t = true.

(** ** Valid messages *)

Fixpoint uf_okb (u : ufield) : bool :=
  tag_okb (uf_number u) &&
  match u with
  | UVarint _ v => v <? two64
  | U64 _ bs => bytes_okb bs && (length bs =? 8)%nat
  | ULen _ bs => bytes_okb bs
  | UGroup _ fs => forallb uf_okb fs
  | U32 _ bs => bytes_okb bs && (length bs =? 4)%nat
  end.

Fixpoint keys_nodupb {A} (l : list (mapkey * A)) : bool :=
  match l with
  | [] => true
  | (k, _) :: r => negb (existsb (fun kv => mk_eqb k (fst kv)) r) && keys_nodupb r
  end.

(** At most one member of a oneof holds a value. *)
Definition oneofs_okb (t : tables) (d : nat) (fs : fieldset) : bool :=
  forallb (fun kv =>
    match snd kv, get_field t d (fst kv) with
    | SVal _, Some f =>
        match fd_oneof f with
        | None => true
        | Some nums =>
            forallb (fun n => (n =? fst kv) ||
                              match bt_get n fs with Some (SVal _) => false | _ => true end) nums
        end
    | _, _ => true
    end) fs.

(** [ok_elem t v k]: [v] is a well-typed non-repeated value of kind [k];
    messages are checked recursively: sorted numbers, every stored value fits
    its field or extension, unknown fields only under numbers that are neither. *)
Fixpoint ok_elem (t : tables) (v : value) (k : kind) {struct v} : bool :=
  match v with
  | VMessage (DM d fs) =>
      match kind_msg k with
      | None => false
      | Some i =>
          (d =? i)%nat && (d <? length (t_messages t))%nat && bt_sortedb fs && oneofs_okb t d fs
          && forallb (fun kv =>
               match snd kv with
               | Taken => true
               | SUnk us =>
                   match find_desc t d (fst kv) with
                   | Some _ => false
                   | None => tag_okb (fst kv) && negb (length us =? 0)%nat
                             && forallb (fun u => (uf_number u =? fst kv) && uf_okb u) us
                   end
               | SVal v' =>
                   match find_desc t d (fst kv) with
                   | None => false
                   | Some f =>
                       match v' with
                       | VList vs => fd_is_list f && forallb (fun x => ok_elem t x (fd_kind f)) vs
                       | VMap kvs =>
                           match kind_msg (fd_kind f), fd_is_map f with
                           | Some e, true =>
                               match entry_key t e, entry_value t e with
                               | Some kf, Some vf =>
                                   keys_nodupb kvs
                                   && forallb (fun x => mk_okb (fd_kind kf) (fst x)
                                                        && ok_elem t (snd x) (fd_kind vf)) kvs
                               | _, _ => false
                               end
                           | _, _ => false
                           end
                       | _ => negb (fd_is_list f) && negb (fd_is_map f) && ok_elem t v' (fd_kind f)
                       end
                   end
               end) fs
      end
  | VList _ | VMap _ => false
  | _ => sc_okb k v
  end.

(** a whole field's value *)
Definition ok_field (t : tables) (f : fdl) (v : value) : bool :=
  match v with
  | VList vs => fd_is_list f && forallb (fun x => ok_elem t x (fd_kind f)) vs
  | VMap kvs =>
      match kind_msg (fd_kind f), fd_is_map f with
      | Some e, true =>
          match entry_key t e, entry_value t e with
          | Some kf, Some vf =>
              keys_nodupb kvs
              && forallb (fun x => mk_okb (fd_kind kf) (fst x)
                                   && ok_elem t (snd x) (fd_kind vf)) kvs
          | _, _ => false
          end
      | _, _ => false
      end
  | _ => negb (fd_is_list f) && negb (fd_is_map f) && ok_elem t v (fd_kind f)
  end.
Definition ok_slot (t : tables) (d : nat) (kv : N * slot value) : bool :=
  match snd kv with
  | Taken => true
  | SUnk us =>
      match find_desc t d (fst kv) with
      | Some _ => false
      | None => tag_okb (fst kv) && negb (length us =? 0)%nat
                && forallb (fun u => (uf_number u =? fst kv) && uf_okb u) us
      end
  | SVal v =>
      match find_desc t d (fst kv) with
      | None => false
      | Some f => ok_field t f v
      end
  end.
(** a whole message *)
Definition ok_msg (t : tables) (m : dynmsg) : bool :=
  (dm_desc m <? length (t_messages t))%nat && bt_sortedb (dm_fields m)
  && oneofs_okb t (dm_desc m) (dm_fields m)
  && forallb (ok_slot t (dm_desc m)) (dm_fields m).

(** Levels of nesting: messages and groups inside a value, counting groups
    among unknown fields; maps and lists add nothing of their own. *)
Fixpoint depth (v : value) : nat :=
  match v with
  | VMessage (DM d fs) =>
      S (list_max (map (fun kv =>
           match snd kv with
           | SVal v' => depth v'
           | SUnk us => ufs_depth us
           | Taken => O
           end) fs))
  | VList vs => list_max (map depth vs)
  | VMap kvs => list_max (map (fun kv => depth (snd kv)) kvs)
  | _ => O
  end.
Definition depth_slot (s : slot value) : nat :=
  match s with
  | SVal v' => depth v'
  | SUnk us => ufs_depth us
  | Taken => O
  end.
Definition msg_depth (m : dynmsg) : nat :=
  list_max (map (fun kv => depth_slot (snd kv)) (dm_fields m)).
