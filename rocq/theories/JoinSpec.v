(** Files whose references do not depend on which other files there are: the
    specification for C64 and C65. *)
From Verif Require Import Base Value Descr Proto Build DeclSpec.
From Coq Require Import List ZArith NArith.
Import ListNotations.
Local Open Scope list_scope.

(** a reference that is absolute, or has no dot *)
Definition settled (s : str) : Prop := (exists r, s = dot :: r) \/ ~ In dot s.
(** the references of what is declared *)
Definition settled_item (it : item) : Prop :=
  match it with
  | IField x => settled (fp_type_name x)
  | IExt x => settled (fp_type_name x) /\ settled (match fp_extendee x with Some e => e | None => [] end)
  | IMethod m => settled (mp_input m) /\ settled (mp_output m)
  | _ => True
  end.
Definition settled_file (f : file) : Prop :=
  forall path scope it, declares f path scope it -> settled_item it.
