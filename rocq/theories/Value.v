(** Dynamic values and messages: the data types of
    prost-reflect/src/dynamic/mod.rs:30-95 and dynamic/fields.rs:37-51. *)
From Verif Require Import Base Wire Unknown.

(** MapKey (dynamic/mod.rs:73-88) *)
Inductive mapkey :=
| MKBool (b : bool)
| MKI32 (z : Z)
| MKI64 (z : Z)
| MKU32 (n : N)
| MKU64 (n : N)
| MKString (s : str).

(** ValueOrUnknown (dynamic/fields.rs:43-51) *)
Inductive slot (V : Type) :=
| Taken
| SVal (v : V)
| SUnk (us : list ufield).
Arguments Taken {V}.
Arguments SVal {V} v.
Arguments SUnk {V} us.

(** DynamicMessage (dynamic/mod.rs:22-26).  The descriptor is the index of the
    message in the (single) pool; the field set is a BTreeMap<u32, _>, i.e. a
    list sorted by number (fields.rs:37-40). *)
Record dynmsg_ (V : Type) := DM { dm_desc : nat; dm_fields : list (N * slot V) }.
Arguments DM {V} dm_desc dm_fields.
Arguments dm_desc {V} d.
Arguments dm_fields {V} d.

(** Value (dynamic/mod.rs:36-68).  Floats are their IEEE-754 bit patterns; a
    HashMap is an association list in iteration order (unique keys). *)
Inductive value :=
| VBool (b : bool)
| VI32 (z : Z)
| VI64 (z : Z)
| VU32 (n : N)
| VU64 (n : N)
| VF32 (bits : N)
| VF64 (bits : N)
| VString (s : str)
| VBytes (s : bytes)
| VEnum (z : Z)
| VMessage (m : dynmsg_ value)
| VList (vs : list value)
| VMap (kvs : list (mapkey * value)).

Notation dynmsg := (dynmsg_ value).
Notation fieldset := (list (N * slot value)).

(** ** Equality (the derived PartialEq of Value, DynamicMessage, MapKey) *)

Definition mk_eqb (a b : mapkey) : bool :=
  match a, b with
  | MKBool x, MKBool y => Bool.eqb x y
  | MKI32 x, MKI32 y => (x =? y)%Z
  | MKI64 x, MKI64 y => (x =? y)%Z
  | MKU32 x, MKU32 y => x =? y
  | MKU64 x, MKU64 y => x =? y
  | MKString x, MKString y => bytes_eqb x y
  | _, _ => false
  end.

(** f32/f64 [==] on bit patterns: NaN differs from everything, the two zeros
    are equal. *)
Definition f32_nan (b : N) : bool := 2139095040 <? b mod 2147483648.
Definition f64_nan (b : N) : bool := 9218868437227405312 <? b mod 9223372036854775808.
Definition f32_zero (b : N) : bool := b mod 2147483648 =? 0.
Definition f64_zero (b : N) : bool := b mod 9223372036854775808 =? 0.
Definition f32_eqb (a b : N) : bool :=
  negb (f32_nan a) && negb (f32_nan b) && ((a =? b) || (f32_zero a && f32_zero b)).
Definition f64_eqb (a b : N) : bool :=
  negb (f64_nan a) && negb (f64_nan b) && ((a =? b) || (f64_zero a && f64_zero b)).

(** HashMap lookup *)
Fixpoint map_get {A} (k : mapkey) (l : list (mapkey * A)) : option A :=
  match l with
  | [] => None
  | (k', v) :: r => if mk_eqb k k' then Some v else map_get k r
  end.

(** HashMap::insert: replaces the value of an equal key, otherwise adds. *)
Fixpoint map_insert {A} (k : mapkey) (v : A) (l : list (mapkey * A)) : list (mapkey * A) :=
  match l with
  | [] => [(k, v)]
  | (k', v') :: r => if mk_eqb k k' then (k', v) :: r else (k', v') :: map_insert k v r
  end.

Fixpoint value_eqb (a b : value) {struct a} : bool :=
  match a, b with
  | VBool x, VBool y => Bool.eqb x y
  | VI32 x, VI32 y => (x =? y)%Z
  | VI64 x, VI64 y => (x =? y)%Z
  | VU32 x, VU32 y => x =? y
  | VU64 x, VU64 y => x =? y
  | VF32 x, VF32 y => f32_eqb x y
  | VF64 x, VF64 y => f64_eqb x y
  | VString x, VString y => bytes_eqb x y
  | VBytes x, VBytes y => bytes_eqb x y
  | VEnum x, VEnum y => (x =? y)%Z
  | VMessage m, VMessage m' =>
      (dm_desc m =? dm_desc m')%nat &&
      (fix eqf (l l' : list (N * slot value)) : bool :=
         match l, l' with
         | [], [] => true
         | (k, s) :: r, (k', s') :: r' =>
             (k =? k') &&
             (match s, s' with
              | Taken, Taken => true
              | SVal v, SVal v' => value_eqb v v'
              | SUnk us, SUnk us' => ufs_eqb us us'
              | _, _ => false
              end) && eqf r r'
         | _, _ => false
         end) (dm_fields m) (dm_fields m')
  | VList l, VList l' =>
      (fix eql (l l' : list value) : bool :=
         match l, l' with
         | [], [] => true
         | v :: r, v' :: r' => value_eqb v v' && eql r r'
         | _, _ => false
         end) l l'
  | VMap l, VMap l' =>
      (length l =? length l')%nat &&
      (fix eqm (l : list (mapkey * value)) : bool :=
         match l with
         | [] => true
         | (k, v) :: r =>
             (match map_get k l' with
              | Some v' => value_eqb v v'
              | None => false
              end) && eqm r
         end) l
  | _, _ => false
  end.

(** ** Induction principle for the nested type *)
Definition slot_all {V} (P : V -> Prop) (s : slot V) : Prop :=
  match s with SVal v => P v | _ => True end.

Section ValueInd.
  Variable P : value -> Prop.
  Hypothesis HBool : forall b, P (VBool b).
  Hypothesis HI32 : forall z, P (VI32 z).
  Hypothesis HI64 : forall z, P (VI64 z).
  Hypothesis HU32 : forall n, P (VU32 n).
  Hypothesis HU64 : forall n, P (VU64 n).
  Hypothesis HF32 : forall n, P (VF32 n).
  Hypothesis HF64 : forall n, P (VF64 n).
  Hypothesis HString : forall s, P (VString s).
  Hypothesis HBytes : forall s, P (VBytes s).
  Hypothesis HEnum : forall z, P (VEnum z).
  Hypothesis HMessage :
    forall d fs, Forall (fun kv => slot_all P (snd kv)) fs -> P (VMessage (DM d fs)).
  Hypothesis HList : forall vs, Forall P vs -> P (VList vs).
  Hypothesis HMap : forall kvs, Forall (fun kv => P (snd kv)) kvs -> P (VMap kvs).

  Fixpoint value_ind' (v : value) : P v :=
    match v with
    | VBool b => HBool b
    | VI32 z => HI32 z
    | VI64 z => HI64 z
    | VU32 n => HU32 n
    | VU64 n => HU64 n
    | VF32 n => HF32 n
    | VF64 n => HF64 n
    | VString s => HString s
    | VBytes s => HBytes s
    | VEnum z => HEnum z
    | VMessage (DM d fs) =>
        HMessage d fs
          ((fix go (l : list (N * slot value)) : Forall (fun kv => slot_all P (snd kv)) l :=
              match l with
              | [] => Forall_nil _
              | kv :: r =>
                  Forall_cons kv
                    (match kv return slot_all P (snd kv) with
                     | (_, SVal w) => value_ind' w
                     | (_, Taken) => I
                     | (_, SUnk _) => I
                     end) (go r)
              end) fs)
    | VList vs =>
        HList vs ((fix go (l : list value) : Forall P l :=
                     match l with
                     | [] => Forall_nil _
                     | w :: r => Forall_cons w (value_ind' w) (go r)
                     end) vs)
    | VMap kvs =>
        HMap kvs ((fix go (l : list (mapkey * value)) : Forall (fun kv => P (snd kv)) l :=
                     match l with
                     | [] => Forall_nil _
                     | kv :: r =>
                         Forall_cons kv
                           (match kv return P (snd kv) with (_, w) => value_ind' w end) (go r)
                     end) kvs)
    end.
End ValueInd.
