(** File descriptors used to show that the theorems about pools are not vacuous. *)
From Coq Require Import String.
From Verif Require Import Base BaseProofs Value Descr Proto Build BuildResolve BuildInv.
From Coq Require Import List Sorted.
Import ListNotations.
Local Open Scope list_scope.
Local Open Scope N_scope.

(** a linear search meets the contract of the binary search *)
Fixpoint lsearch (l : list (Z * nat)) (z : Z) : nat * bool :=
  match l with
  | [] => (O, false)
  | (n, _) :: r =>
      if (n =? z)%Z then (O, true)
      else if (z <? n)%Z then (O, false)
      else let (j, b) := lsearch r z in (S j, b)
  end.
Definition demo_externs : externs := Externs (fun _ => None) (fun _ => None) true lsearch (fun _ _ => Ok true).
Lemma demo_search : search_ok demo_externs.
Proof.
  intros l z. cbn [x_search demo_externs]. induction l as [|[n k] l IH]; intros S; cbn [lsearch].
  - cbn. split; [lia|]. split; intros kv [].
  - inversion S as [|? ? S' F]; subst. specialize (IH S').
    destruct (Z.eqb_spec n z) as [-> |Hne]; [exists k; reflexivity|].
    destruct (Z.ltb_spec z n).
    + cbn. split; [lia|]. split; [intros kv []|]. intros kv [<- |Hi]; [assumption|].
      rewrite Forall_forall in F. specialize (F _ Hi). unfold num_le in F. cbn in F. lia.
    + destruct (lsearch l z) as [j b]. destruct b; [exact IH|]. destruct IH as [A [B C]]. cbn [firstn skipn length].
      split; [lia|]. split; [|exact C]. intros kv [<- |Hi]; [cbn; lia|auto].
Qed.

Definition b (s : string) : str := s2b s.
Definition fld (name : string) (num : Z) (l : card) (ty : ptype) (tn : string) : fproto :=
  FP (b name) None num l ty (b tn) None None None None false.

(** package a.b: a message with a nested message, an enum, a oneof and an
    extension range; a service *)
Definition file_ab : file :=
  File (b "ab.proto") (b "a.b") [] [] []
    [DP (b "M")
        [fld "foo_bar" 1 Optional TInt32 ""; fld "self" 2 Repeated TMessage "M";
         fld "in" 3 Optional TMessage "Inner"; fld "e" 4 Optional TEnum ".a.b.E";
         FP (b "x") None 5 Optional TString [] (Some (b "dflt")) (Some 0%Z) None None false]
        [] [DP (b "Inner") [fld "v" 1 Optional TBytes ""] [] [] [] [] [] false []]
        [EP (b "Kind") [(b "K0", 0%Z); (b "K1", 1%Z)] [] None]
        [(100, 200)%Z] [b "choice"] false [(50, 60)%Z]]
    [EP (b "E") [(b "E_TWO", 2%Z); (b "E_ZERO", 0%Z); (b "E_TWO_AGAIN", 2%Z)] [(7, 9)%Z] (Some (true, []))]
    [SP (b "S") [MP (b "Do") (b "M") (b ".a.b.M.Inner")]]
    [] (Some b_proto2).
(** a second file importing it and extending the message *)
Definition file_cd : file :=
  File (b "cd.proto") (b "c") [b "ab.proto"] [] []
    [DP (b "N") [fld "m" 1 Optional TMessage "a.b.M"] [] [] [] [] [] false []]
    [] []
    [FP (b "ext1") (Some (b ".a.b.M")) 100 Optional TInt32 [] None None None None false;
     FP (b "ext2") (Some (b "a.b.M")) 101 Repeated TMessage (b "N") None None None None false]
    None.

Definition built (o : outcome) : pool := match o with Built p => p | _ => empty_pool end.
Definition pool_ab : pool := built (build_files demo_externs 10 empty_pool [file_ab]).
Definition pool_abcd : pool := built (build_files demo_externs 10 pool_ab [file_cd]).

Lemma built_ab : build_files demo_externs 10 empty_pool [file_ab] = Built pool_ab.
Proof. vm_compute. reflexivity. Qed.
Lemma built_abcd : build_files demo_externs 10 pool_ab [file_cd] = Built pool_abcd.
Proof. vm_compute. reflexivity. Qed.
Lemma reach_ab : reachable demo_externs pool_ab.
Proof. apply (re_built _ 10 empty_pool [file_ab] _ (re_empty _)); [repeat constructor; discriminate|exact built_ab]. Qed.
Lemma reach_abcd : reachable demo_externs pool_abcd.
Proof. apply (re_built _ 10 pool_ab [file_cd] _ reach_ab); [repeat constructor; discriminate|exact built_abcd]. Qed.
