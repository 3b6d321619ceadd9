(** When two message types are compatible: their fields agree one by one in
    everything the binary format depends on (number, kind, cardinality,
    packing, presence, default, oneof), and so do the types they refer to.
    Names do not matter. *)
From Verif Require Import Base Wire Unknown Value Descr Fields.

Section Like.
  (** [D] are the types of [t] under consideration; [rho] says which type of
      [t'] stands for each of them *)
  Variables (t t' : tables) (D : nat -> bool) (rho : nat -> nat).

  Definition kind_like (k k' : kind) : Prop :=
    match k, k' with
    | KMessage i, KMessage j | KGroup i, KGroup j => D i = true /\ rho i = j
    | KEnum e, KEnum e' => enum_default t e = enum_default t' e'
    | KMessage _, _ | KGroup _, _ | KEnum _, _ => False
    | _, _ => k = k'
    end.
  Record field_like (f f' : fdl) : Prop := {
    fl_number : fd_number f = fd_number f';
    fl_kind : kind_like (fd_kind f) (fd_kind f');
    fl_card : fd_card f = fd_card f';
    fl_packed : fd_packed f = fd_packed f';
    fl_presence : fd_presence f = fd_presence f';
    fl_oneof : fd_oneof f = fd_oneof f';
    fl_default : fd_default f = fd_default f';
    fl_map : fd_is_map f = fd_is_map f'
  }.
  Definition opt_like (o o' : option fdl) : Prop :=
    match o, o' with
    | Some f, Some f' => field_like f f'
    | None, None => True
    | _, _ => False
    end.
  Definition compatible : Prop :=
    forall d, D d = true ->
      (rho d < length (t_messages t'))%nat /\
      Forall2 field_like (msg_fields t d) (msg_fields t' (rho d)) /\
      forall n, opt_like (get_ext t d n) (get_ext t' (rho d) n).
End Like.

(** The same value with the descriptors of its messages replaced. *)
Fixpoint ren (rho : nat -> nat) (v : value) : value :=
  match v with
  | VMessage (DM d fs) =>
      VMessage (DM (rho d)
        (map (fun kv => (fst kv, match snd kv with
                                 | SVal x => SVal (ren rho x)
                                 | Taken => Taken
                                 | SUnk us => SUnk us
                                 end)) fs))
  | VList vs => VList (map (ren rho) vs)
  | VMap kvs => VMap (map (fun kv => (fst kv, ren rho (snd kv))) kvs)
  | _ => v
  end.
Definition ren_slot (rho : nat -> nat) (s : slot value) : slot value :=
  match s with SVal x => SVal (ren rho x) | Taken => Taken | SUnk us => SUnk us end.
Definition ren_msg (rho : nat -> nat) (m : dynmsg) : dynmsg :=
  DM (rho (dm_desc m)) (map (fun kv => (fst kv, ren_slot rho (snd kv))) (dm_fields m)).
