(** How references to types are resolved: the specification for C24 and C25. *)
From Verif Require Import Base Descr Proto Build DeclSpec.
From Coq Require Import List ZArith NArith.
Import ListNotations.
Local Open Scope list_scope.
Local Open Scope N_scope.

(** ** C24 *)

(** the scopes around a scope: itself, what stands before one of its dots, and
    the outermost (empty) one; the longer, the further in *)
Definition encloses (sc scope : str) : Prop :=
  sc = scope \/ (exists rest, scope = sc ++ dot :: rest) \/ sc = [].
Definition inside (inner outer : str) : Prop := (length outer < length inner)%nat.

Section Resolves.
  (** the names there are, the files visible from the reference, and the kinds
      of definition that fit *)
  Variable names : str -> option def.
  Variable visible : nat -> Prop.
  Variable fits : dkind -> Prop.

  Definition fitting (n : str) (d : def) : Prop := names n = Some d /\ visible (d_file d) /\ fits (d_kind d).
  (** something that can contain other definitions *)
  Definition container (k : dkind) : Prop :=
    k = DPackage \/ (exists i, k = DMessage i) \/ (exists i, k = DEnum i) \/ (exists i, k = DService i).

  Inductive resolves (scope : str) : str -> str -> def -> Prop :=
  (** a leading dot: exactly that name *)
  | rs_absolute n d : fitting n d -> resolves scope (dot :: n) n d
  (** a simple name: the innermost enclosing scope that has it *)
  | rs_simple ref sc d : ~ In dot ref -> encloses sc scope -> fitting (dotted sc ref) d ->
      (forall sc', encloses sc' scope -> inside sc' sc -> forall d', ~ fitting (dotted sc' ref) d') ->
      resolves scope ref (dotted sc ref) d
  (** a compound name: the innermost enclosing scope in which the first part is
      declared as a container must have the whole *)
  | rs_compound first rest sc c d : first <> [] -> ~ In dot first -> encloses sc scope ->
      names (dotted sc first) = Some c -> container (d_kind c) ->
      (forall sc', encloses sc' scope -> inside sc' sc -> forall c', names (dotted sc' first) = Some c' -> ~ container (d_kind c')) ->
      fitting (dotted sc (first ++ dot :: rest)) d ->
      resolves scope (first ++ dot :: rest) (dotted sc (first ++ dot :: rest)) d.
End Resolves.

(** kinds of definition a field type can refer to *)
Definition field_type (k : dkind) : Prop := (exists i, k = DMessage i) \/ (exists i, k = DEnum i).
Definition message_type (k : dkind) : Prop := exists i, k = DMessage i.

(** ** C25 *)

(** file number [a] imports file number [x] with its import statement number [k] *)
Definition imports_at (fs : list file) (a k x : nat) : Prop :=
  exists f g name, nth_error fs a = Some f /\ nth_error (fl_deps f) k = Some name /\ nth_error fs x = Some g /\ fl_name g = name.
Definition imports (fs : list file) (a x : nat) : Prop := exists k, imports_at fs a k x.
Definition public_import (fs : list file) (a x : nat) : Prop :=
  exists f k, nth_error fs a = Some f /\ In (Z.of_nat k) (fl_public f) /\ imports_at fs a k x.
Inductive public_imports (fs : list file) : nat -> nat -> Prop :=
| pi_here a : public_imports fs a a
| pi_more a c x : public_import fs a c -> public_imports fs c x -> public_imports fs a x.
(** what a file sees: itself, its imports, and what those import publicly *)
Definition sees (fs : list file) (a x : nat) : Prop :=
  a = x \/ exists j, imports fs a j /\ public_imports fs j x.
