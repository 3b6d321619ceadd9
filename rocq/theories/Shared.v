(** Sharing of pools: a [DescriptorPool] (and every descriptor obtained from it)
    is a reference-counted handle to a pool, which is copied on write. *)
From Verif Require Import Base Value Descr Proto Build.

(** A reference-counted cell (descriptor/mod.rs:130-133: inner: Arc<DescriptorPoolInner>).
    Counts are unbounded here; weak references are not used by the code. *)
Record cell := Cell { c_count : nat; c_pool : pool }.
(** cells in allocation order, and the live handles (None: dropped) *)
Record store := Store { st_heap : list cell; st_hs : list (option nat) }.

Definition set_nth {A} (i : nat) (a : A) (l : list A) : list A := upd i (fun _ => a) l.
Definition bump (d : nat -> nat) (c : cell) : cell := Cell (d (c_count c)) (c_pool c).

Inductive op :=
| OpNew                                    (* DescriptorPool::new (api.rs:232-234) *)
| OpClone (h : nat)                        (* Clone, and every getter that stores self.clone() or parent_pool().clone() *)
| OpDrop (h : nat)
| OpAdd (h : nat) (fuel : nat) (fs : list file).   (* the add_* and decode_* methods *)

(** Arc::make_mut: the handle's cell if it is not shared, or else a fresh copy
    (build/mod.rs:133); returns the index of the cell *)
Definition make_mut (h c : nat) (s : store) : store * nat :=
  match nth_error (st_heap s) c with
  | Some (Cell 1 _) => (s, c)
  | Some (Cell n p) =>
      (Store (upd c (bump pred) (st_heap s) ++ [Cell 1 p]) (set_nth h (Some (length (st_heap s))) (st_hs s)),
       length (st_heap s))
  | None => (s, c)
  end.
(** Arc::get_mut(..).unwrap(): panics if the cell is shared (build/mod.rs:118, 142) *)
Definition get_mut (c : nat) (s : store) : res pool :=
  match nth_error (st_heap s) c with
  | Some (Cell 1 p) => Ok p
  | _ => Panic
  end.

Section Ops.
Variable X : externs.

(** build_files on a handle (build/mod.rs:104-148).  All changes of a pool
    happen after make_mut, in the cell it returns. *)
Definition add_op (h : nat) (fuel : nat) (fs : list file) (s : store) : res store :=
  match nth_error (st_hs s) h with
  | Some (Some c) =>
      match nth_error (st_heap s) c with
      | None => Panic
      | Some (Cell _ p0) =>
          match filter (fun f => match assoc_s (fl_name f) (p_file_names p0) with Some _ => false | None => true end) fs with
          | [] => Ok s
          | _ =>
              let (s1, c1) := make_mut h c s in
              let! p := get_mut c1 s1 in
              match build_files X fuel p fs with
              | Built p' | Rejected p' _ => Ok (Store (upd c1 (fun x => Cell (c_count x) p') (st_heap s1)) (st_hs s1))
              | Crashed => Panic
              | Overflow => Fuel
              end
          end
      end
  | _ => Ok s
  end.
Definition op_step (o : op) (s : store) : res store :=
  match o with
  | OpNew => Ok (Store (st_heap s ++ [Cell 1 empty_pool]) (st_hs s ++ [Some (length (st_heap s))]))
  | OpClone h =>
      match nth_error (st_hs s) h with
      | Some (Some c) => Ok (Store (upd c (bump S) (st_heap s)) (st_hs s ++ [Some c]))
      | _ => Ok s
      end
  | OpDrop h =>
      match nth_error (st_hs s) h with
      | Some (Some c) => Ok (Store (upd c (bump pred) (st_heap s)) (set_nth h None (st_hs s)))
      | _ => Ok s
      end
  | OpAdd h fuel fs => add_op h fuel fs s
  end.

(** what a handle shows *)
Definition deref (s : store) (h : option nat) : option pool :=
  match h with None => None | Some c => option_map c_pool (nth_error (st_heap s) c) end.
Definition shown (s : store) : list (option pool) := map (deref s) (st_hs s).

(** ** Specification: every handle has a pool of its own *)
Definition own_step (o : op) (l : list (option pool)) : res (list (option pool)) :=
  match o with
  | OpNew => Ok (l ++ [Some empty_pool])
  | OpClone h => match nth_error l h with Some (Some p) => Ok (l ++ [Some p]) | _ => Ok l end
  | OpDrop h => match nth_error l h with Some (Some p) => Ok (set_nth h None l) | _ => Ok l end
  | OpAdd h fuel fs =>
      match nth_error l h with
      | Some (Some p) =>
          match build_files X fuel p fs with
          | Built p' | Rejected p' _ => Ok (set_nth h (Some p') l)
          | Crashed => Panic
          | Overflow => Fuel
          end
      | _ => Ok l
      end
  end.
Fixpoint own_run (os : list op) (l : list (option pool)) : res (list (option pool)) :=
  match os with [] => Ok l | o :: r => let! l := own_step o l in own_run r l end.
Fixpoint op_run (os : list op) (s : store) : res store :=
  match os with [] => Ok s | o :: r => let! s := op_step o s in op_run r s end.

(** ** The count of a cell is the number of handles to it *)
Definition handles (c : nat) (hs : list (option nat)) : nat :=
  length (filter (fun h => match h with Some d => (d =? c)%nat | None => false end) hs).
Definition counted (s : store) : Prop :=
  (forall c x, nth_error (st_heap s) c = Some x -> c_count x = handles c (st_hs s)) /\
  (forall h c, nth_error (st_hs s) h = Some (Some c) -> (c < length (st_heap s))%nat).
End Ops.
