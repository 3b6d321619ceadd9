(** Common vocabulary of the model: outcomes, byte strings and the two map
    shapes used by the crate ([BTreeMap<u32,_>] and [HashMap<String,_>]). *)
From Coq Require Export List Bool Arith NArith ZArith Lia.
From Coq Require Export ZifyBool ZifyNat ZifyN.
From Coq Require Import Ascii String.
Export ListNotations.
Ltac Zify.zify_post_hook ::= Z.div_mod_to_equations.

Open Scope N_scope.

(** A byte is an [N] below 256; [bytes_ok] states that explicitly where needed. *)
Definition bytes := list N.
Definition bytes_ok (l : bytes) : Prop := Forall (fun b => b < 256) l.
Definition bytes_okb (l : bytes) : bool := forallb (fun b => b <? 256) l.

(** A Rust [String]/[str], as its UTF-8 bytes. *)
Definition str := list N.

(** Literals in examples: ["abc"] as bytes. *)
Fixpoint s2b (s : string) : str :=
  match s with
  | EmptyString => []
  | String a r => N_of_ascii a :: s2b r
  end.

Fixpoint bytes_eqb (a b : bytes) : bool :=
  match a, b with
  | [], [] => true
  | x :: a', y :: b' => (x =? y) && bytes_eqb a' b'
  | _, _ => false
  end.

(** The reasons a decode can fail; only the distinctions used by properties
    are kept (prost's [DecodeError] is a message string). *)
Inductive derr :=
| EVarint        (* "invalid varint" *)
| EKey           (* "invalid key value", "invalid wire type", "invalid tag" *)
| EWireType      (* "invalid wire type: .. (expected ..)" *)
| EUnderflow     (* "buffer underflow" *)
| EUtf8          (* "invalid string value: data is not UTF-8 encoded" *)
| EDelim         (* "delimited length exceeded" *)
| EGroupTag      (* "unexpected end group tag" *)
| ERecursion.    (* "recursion limit reached" *)

(** Outcome of a fallible pure computation.  [Panic] is a Rust panic, [Fuel]
    is exhaustion of the bound used to write a loop as structural recursion. *)
Inductive res (A : Type) : Type :=
| Ok (a : A)
| Err (e : derr)
| Panic
| Fuel.
Arguments Ok {A} a.
Arguments Err {A} e.
Arguments Panic {A}.
Arguments Fuel {A}.

Definition rbind {A B} (r : res A) (k : A -> res B) : res B :=
  match r with
  | Ok a => k a
  | Err e => Err e
  | Panic => Panic
  | Fuel => Fuel
  end.
Notation "'let!' x ':=' r 'in' k" := (rbind r (fun x => k))
  (at level 200, x pattern, r at level 100, k at level 200).

(** [HashMap<String,_>]: association list, first match wins. *)
Fixpoint assoc_s {A} (k : str) (l : list (str * A)) : option A :=
  match l with
  | [] => None
  | (k', v) :: r => if bytes_eqb k k' then Some v else assoc_s k r
  end.

(** [BTreeMap<u32,_>]: list sorted by strictly increasing key. *)
Fixpoint bt_get {A} (k : N) (l : list (N * A)) : option A :=
  match l with
  | [] => None
  | (k', v) :: r => if k =? k' then Some v else bt_get k r
  end.

Fixpoint bt_set {A} (k : N) (v : A) (l : list (N * A)) : list (N * A) :=
  match l with
  | [] => [(k, v)]
  | (k', v') :: r =>
      if k <? k' then (k, v) :: l
      else if k =? k' then (k, v) :: r
      else (k', v') :: bt_set k v r
  end.

Definition bt_remove {A} (k : N) (l : list (N * A)) : list (N * A) :=
  filter (fun kv => negb (k =? fst kv)) l.

Fixpoint bt_sorted {A} (l : list (N * A)) : Prop :=
  match l with
  | [] => True
  | (k, _) :: r => Forall (fun kv => k < fst kv) r /\ bt_sorted r
  end.

Definition opt_all {A} (P : A -> Prop) (o : option A) : Prop :=
  match o with Some a => P a | None => True end.

Definition is_ok {A} (r : res A) : bool :=
  match r with Ok _ => true | _ => false end.
