(** The reserved ranges of an enum, as the API shows them (C73). *)
From Coq Require Import String.
From Verif Require Import Base BaseProofs Value Descr Proto Build VisitProofs EventProofs BuildFrame BuildNames BuildQuiet BuildResolve BuildInv DeclSpec DeclProofs PoolFacts PoolMembers ExampleFiles Prop_Pool Prop_Members Nav.
From Coq Require Import List Lia ZArith NArith.
Import ListNotations.
Local Open Scope list_scope.

(** [reserved_ranges] of an enum does not panic and gives, in order, the ranges
    the enum was declared with, and no value the enum shows has a number in one
    of them, their ends included. *)
Theorem C73_enum_ranges X p i e : search_ok X -> reachable X p -> nth_error (p_enums p) i = Some e ->
  exists f scope en rr,
    nth_error (pool_files p) (id_file (e_id e)) = Some f /\ enum_at f (id_path (e_id e)) scope en /\
    enum_reserved_ranges p e = Ok rr /\ rr = ep_reserved en /\
    forall j v lo hi, nth_error (e_values e) j = Some v -> In (lo, hi) rr -> ~ (lo <= ev_number v <= hi)%Z.
Proof.
  intros SO R H. destruct (C27_values_declared X p i e SO R H) as (f & en & scope & Hf & M & _ & V & _ & _ & K & _).
  exists f, scope, en, (ep_reserved en). split; [exact Hf|]. split; [exact M|]. split.
  - unfold pool_files in Hf. apply nth_map_some in Hf. destruct Hf as (fi & Hfi & <-).
    unfold enum_reserved_ranges, raw_enum. rewrite Hfi. cbn [need rbind]. rewrite (enum_at_found _ _ _ _ M). cbn [need rbind].
    f_equal. clear. induction (ep_reserved en) as [|[lo hi] l IH]; cbn; [reflexivity|]. rewrite IH. reflexivity.
  - split; [reflexivity|]. intros j v lo hi Hv Hr. apply (K (id_name (ev_id v)) (ev_number v) lo hi); [|exact Hr].
    rewrite <- V. apply in_map_iff. exists v. split; [reflexivity|]. exact (nth_error_In _ _ Hv).
Qed.
Print Assumptions C73_enum_ranges.

(** An enum with the reserved ranges -5 to -2 and 5 to 5, and values next to
    their ends; with a value on an end the file is refused. *)
Definition enum_file (z : Z) : file :=
  File (b "e.proto") [] [] [] [] [] [EP (b "E") [(b "A", 0%Z); (b "B", (-1)%Z); (b "C", z)] [((-5)%Z, (-2)%Z); (5%Z, 5%Z)] None] [] [] None.
Definition pool_enum : pool := built (build_files demo_externs 10 empty_pool [enum_file 6]).
Example C73_enum_nonvacuous : exists e, reachable demo_externs pool_enum /\
  nth_error (p_enums pool_enum) 0 = Some e /\ map ev_number (e_values e) = [0; -1; 6]%Z /\
  enum_reserved_ranges pool_enum e = Ok [((-5)%Z, (-2)%Z); (5%Z, 5%Z)] /\
  Forall (fun z => match build_files demo_externs 10 empty_pool [enum_file z] with Rejected _ _ => True | _ => False end) [-5; -2; 5]%Z.
Proof.
  eexists. split; [apply (re_built demo_externs 10 empty_pool [enum_file 6]); [constructor|repeat constructor; discriminate|vm_compute; reflexivity]|].
  do 3 (split; [vm_compute; reflexivity|]). do 3 (constructor; [vm_compute; exact I|]). constructor.
Qed.
