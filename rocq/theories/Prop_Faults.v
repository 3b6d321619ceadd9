(** What the errors of a rejected call say (C68). *)
From Coq Require Import String.
From Verif Require Import Base BaseProofs Value Descr Proto Build VisitProofs EventProofs BuildFrame BuildNames BuildQuiet BuildResolve BuildInv BuildSafe DeclSpec DeclProofs PoolFacts ExampleFiles PoolMembers ResolveSpec Prop_Pool Prop_Resolve DefaultSpec ValidSpec AcceptNames AcceptRefs AcceptResolve AcceptVisible Prop_Accepts FaultSpec FaultNames FaultUses.
From Coq Require Import List Lia.
Import ListNotations.
Local Open Scope list_scope.

(** Every error of a call that adds [new] to [old] points at a fault: all of
    them at faults of names, or, if the names are valid, all of them at faults
    of other kinds. *)
Definition point_right (X : externs) (vis : nat -> nat -> Prop) (old new : list file) (es : list err) : Prop :=
  let fs := old ++ new in
  Forall (points_at fs (length old) (name_fault fs) (file_fault new)) es \/
  (names_valid old new /\ exists names, names_of fs names /\
   Forall (points_at fs (length old) (use_fault X fs names vis) (loose_fault X new)) es).
(** The same with the exception for reserved enum numbers. *)
Definition point_nearly_right (X : externs) (vis : nat -> nat -> Prop) (old new : list file) (es : list err) : Prop :=
  let fs := old ++ new in
  Forall (points_at fs (length old) (name_fault fs) (file_fault new)) es \/
  (names_valid old new /\ exists names, names_of fs names /\
   Forall (points_at fs (length old) (fun k f => nearly (use_fault X fs names vis k f)) (loose_fault X new)) es).

Section Core.
  Context (X : externs) (SO : search_ok X) (p : pool) (R : reachable X p) (fuel : nat) (files : list file).
  Let new := unknown p files.
  Context (vis : nat -> nat -> Prop)
          (Hvis : forall p1, fold_res names_step (visit (offsets_of p) new) (V p []) = Ok (V p1 []) ->
             forall k f t, nth_error (pool_files p ++ new) k = Some f -> gather fuel (files_only (pool_files p ++ new)) (fl_deps f) [k] = Ok t ->
             forall x, In x t <-> vis k x).

  Lemma rejected_points p' es : build_files X fuel p files = Rejected p' es -> es <> [] /\ point_nearly_right X vis (pool_files p) new es.
  Proof.
    intros H. pose proof (reachable_Inv _ _ SO R) as I. pose proof (unknown_dedup X p files I) as E. fold new in E.
    apply build_rejected in H. rewrite <- E in H. destruct H as (v & H & <- & N & _). split; [exact N|].
    assert (unknown_files p new) as Hu by (rewrite E; apply dedup_unknown).
    unfold build_deduped in H. apply rbind_ok in H. destruct H as [[p1 e1] [H1 H]]. cbn [v_errs] in H. destruct e1 as [|er e1].
    - right. pose proof (names_phase _ _ _ H1) as HN. split; [exact (names_are_valid X p I new p1 HN)|].
      exists (fun n => assoc_s n (p_names p1)). split; [exact (names_are_table X p I new p1 HN)|].
      apply rbind_ok in H. destruct H as [[p2 e2] [H2 H]]. pose proof (uses_faults X SO p I new Hu p1 H1 fuel vis (Hvis p1 H1) _ H2) as F.
      cbn [v_errs v_pool] in H, F. destruct e2 as [|er e2].
      + apply rbind_ok in H. destruct H as [ok [Ho H]]. destruct ok; [apply Ok_inj in H; subst v; contradiction|].
        unfold push_err in H. cbn in H. apply Ok_inj in H. subst v. cbn [v_errs]. constructor; [|constructor].
        unfold points_at. cbn [nowhere er_at er_what]. eapply lf_options. exact Ho.
      + apply Ok_inj in H. subst v. exact F.
    - left. apply Ok_inj in H. subst v. exact (names_faults X p I new Hu _ H1).
  Qed.
End Core.

(** ** C68 *)

(** Every error of a rejected call says what is wrong and points at the element
    of a file where that is.  Missing: where the number of an enum value is
    reserved the path is that of the value, but it ends with 3 and not 2. *)
Theorem C68_errors_point_at_faults_partial X fuel p files p' es : search_ok X -> reachable X p ->
  short_publics (pool_files p ++ unknown p files) ->
  build_files X fuel p files = Rejected p' es ->
  es <> [] /\ point_nearly_right X (sees (pool_files p ++ unknown p files)) (pool_files p) (unknown p files) es.
Proof.
  intros SO R S H. pose proof (reachable_Inv _ _ SO R) as I. refine (rejected_points X SO p R fuel files _ _ p' es H).
  intros p1 H1. apply (gather_sees X p _ p1 fuel I); [|exact H1|exact S]. rewrite (unknown_dedup X p files I). apply dedup_unknown.
Qed.
Print Assumptions C68_errors_point_at_faults_partial.

(** Without reserved enum numbers all errors point right. *)
Theorem C68_errors_point_at_faults X fuel p files p' es : search_ok X -> reachable X p ->
  short_publics (pool_files p ++ unknown p files) ->
  build_files X fuel p files = Rejected p' es ->
  ~ In ErrEnumReserved (map er_what es) ->
  point_right X (sees (pool_files p ++ unknown p files)) (pool_files p) (unknown p files) es.
Proof.
  intros SO R S H N. destruct (C68_errors_point_at_faults_partial X fuel p files p' es SO R S H) as [_ [Q|(NV & names & NO & Q)]]; [left; exact Q|right].
  split; [exact NV|]. exists names. split; [exact NO|]. rewrite Forall_forall in Q |- *. intros e He. specialize (Q e He). unfold points_at in *.
  destruct (er_at e) as [[k path]|]; [|exact Q]. destruct Q as (f & A & B & [[_ C]|[C _]]); [eauto|].
  exfalso. apply N. apply in_map_iff. exists e. auto.
Qed.
Print Assumptions C68_errors_point_at_faults.

(** For all public imports, with the set of files the resolver collects in the
    place of what a file sees. *)
Theorem C68_errors_point_as_collected_partial X fuel p files p' es : search_ok X -> reachable X p ->
  build_files X fuel p files = Rejected p' es ->
  es <> [] /\ point_nearly_right X (collected fuel (pool_files p ++ unknown p files)) (pool_files p) (unknown p files) es.
Proof.
  intros SO R H. refine (rejected_points X SO p R fuel files _ _ p' es H).
  intros p1 _ k f t Hf G x. unfold collected. split; [intros Hx; eauto|]. intros (f' & t' & F1 & F2 & F3).
  rewrite Hf in F1. apply Some_inj in F1. subst f'. rewrite G in F2. apply Ok_inj in F2. subst t'. exact F3.
Qed.
Print Assumptions C68_errors_point_as_collected_partial.

Definition errors_of (r : outcome) : list err := match r with Rejected _ es => es | _ => [] end.
Lemma rejected_errors r p' es l : r = Rejected p' es -> errors_of r = l -> es = l.
Proof. intros -> H. exact H. Qed.

(** The exception is real: the second value of this enum has a reserved number.
    Its number is at [5; 0; 2; 1; 2]; the error points at [5; 0; 2; 1; 3], which
    is the options of the value. *)
Definition file_reserved : file :=
  File (b "r.proto") (b "r") [] [] [] [] [EP (b "E") [(b "A", 0%Z); (b "B", 5%Z)] [(4, 6)%Z] None] [] [] None.
Theorem C68_refuted_reserved_value : exists p' es,
  build_files demo_externs 10 pool_ab [file_reserved] = Rejected p' es /\
  es = [at_spot (1%nat, [5; 0; 2; 1; 3]%Z) ErrEnumReserved] /\
  forall vis, ~ point_right demo_externs vis (pool_files pool_ab) (unknown pool_ab [file_reserved]) es.
Proof.
  destruct (build_files demo_externs 10 pool_ab [file_reserved]) as [|p' es| |] eqn:F; try (exfalso; vm_compute in F; discriminate).
  exists p', es. split; [reflexivity|].
  assert (es = [at_spot (1%nat, [5; 0; 2; 1; 3]%Z) ErrEnumReserved]) as -> by (apply (rejected_errors _ _ _ _ F); vm_compute; reflexivity).
  split; [reflexivity|]. intros vis [Q|(_ & names & _ & Q)]; inversion Q as [|? ? Q1 _]; subst; cbn [points_at at_spot er_at er_what] in Q1; destruct Q1 as (f & _ & _ & Q1).
  - inversion Q1.
  - assert (forall l : list Z, last (l ++ [2%Z]) 0%Z = 2%Z) as La by (intros; apply last_last).
    inversion Q1 as [| | | | | |? ? ? ? ? ? ? Re| | | | |path scope e j x lo hi M Hx Hr Hz Ep Ew]; subst.
    + inversion Re.
    + specialize (La (path ++ [2%Z; pos j])). rewrite <- app_assoc in La. cbn [app] in La, Ep. rewrite Ep in La. discriminate La.
Qed.
Print Assumptions C68_refuted_reserved_value.

(** Not vacuous: a file with faults of several kinds, and where they are. *)
Definition file_faulty : file :=
  File (b "w.proto") (b "w") [b "none.proto"; b "ab.proto"] [7%Z] []
    [DP (b "M") [fld "v" 19000 Optional TInt32 ""; fld "w" 1 Optional TMessage "Nowhere"; fld "x" 1 Optional TInt32 "";
                 FP (b "y") None 4 Optional TInt32 [] (Some (b "abc")) None None None false] [] [] [] [] [] false []] [] [] [] None.
Lemma faulty_publics a c : ~ public_import [file_ab; file_faulty] a c.
Proof.
  intros (f & k & Ha & Hk & f' & g & n & Hf' & Hn & _). rewrite Ha in Hf'. apply Some_inj in Hf'. subst f'.
  assert (f = file_ab \/ f = file_faulty) as [-> | ->].
  { apply nth_error_In in Ha. destruct Ha as [Ha|[Ha|[]]]; [left|right]; symmetry; exact Ha. }
  - destruct Hk.
  - change (fl_public file_faulty) with [7%Z] in Hk. destruct Hk as [Hk|[]]. assert (k = 7%nat) as -> by lia.
    assert (nth_error (fl_deps file_faulty) 7 = None) as Q by reflexivity. rewrite Q in Hn. discriminate Hn.
Qed.
Example C68_faulty : exists p' es, build_files demo_externs 10 pool_ab [file_faulty] = Rejected p' es /\
  es = [at_spot (1%nat, [3; 0]%Z) (ErrFileNotFound (b "none.proto"));
        nowhere ErrImportIndex;
        at_spot (1%nat, [4; 0; 2; 0; 3]%Z) ErrFieldNumber;
        at_spot (1%nat, [4; 0; 2; 1; 6]%Z) (ErrNotFound (b "Nowhere"));
        at_spot (1%nat, [4; 0; 2; 2; 3]%Z) ErrDupNumber;
        at_spot (1%nat, [4; 0; 2; 3; 7]%Z) (ErrDefault (b "abc"))] /\
  point_right demo_externs (sees (pool_files pool_ab ++ [file_faulty])) (pool_files pool_ab) [file_faulty] es.
Proof.
  destruct (build_files demo_externs 10 pool_ab [file_faulty]) as [|p' es| |] eqn:F; try (exfalso; vm_compute in F; discriminate).
  exists p', es. split; [reflexivity|].
  assert (unknown pool_ab [file_faulty] = [file_faulty]) as E by (vm_compute; reflexivity).
  pose proof (C68_errors_point_at_faults demo_externs 10 pool_ab [file_faulty] p' es demo_search reach_ab) as H. rewrite E in H.
  assert (es = [at_spot (1%nat, [3; 0]%Z) (ErrFileNotFound (b "none.proto"));
        nowhere ErrImportIndex;
        at_spot (1%nat, [4; 0; 2; 0; 3]%Z) ErrFieldNumber;
        at_spot (1%nat, [4; 0; 2; 1; 6]%Z) (ErrNotFound (b "Nowhere"));
        at_spot (1%nat, [4; 0; 2; 2; 3]%Z) ErrDupNumber;
        at_spot (1%nat, [4; 0; 2; 3; 7]%Z) (ErrDefault (b "abc"))]) as Ees by (apply (rejected_errors _ _ _ _ F); vm_compute; reflexivity).
  split; [exact Ees|]. apply H.
  - assert (pool_files pool_ab = [file_ab]) as PF by (vm_compute; reflexivity). rewrite PF.
    intros a c d P _. exact (faulty_publics a c P).
  - exact F.
  - rewrite Ees. cbn [map er_what at_spot nowhere]. intros Q. repeat (destruct Q as [Q|Q]; [discriminate Q|]). exact Q.
Qed.
(** and two faults of names *)
Definition file_names_faulty : file :=
  File (b "x.proto") (b "a.b") [] [] []
    [DP (b "M") [] [] [] [] [] [] false []] [EP (b "Empty") [] [] None] [] [] None.
Example C68_faulty_names : exists p' es, build_files demo_externs 10 pool_ab [file_names_faulty] = Rejected p' es /\
  es = [at_spot (1%nat, [4; 0; 1]%Z) (ErrDupName (b "a.b.M")); at_spot (1%nat, [5; 0]%Z) ErrEmptyEnum] /\
  Forall (points_at (pool_files pool_ab ++ [file_names_faulty]) 1 (name_fault (pool_files pool_ab ++ [file_names_faulty])) (file_fault [file_names_faulty])) es.
Proof.
  destruct (build_files demo_externs 10 pool_ab [file_names_faulty]) as [|p' es| |] eqn:F; try (exfalso; vm_compute in F; discriminate).
  exists p', es. split; [reflexivity|].
  assert (es = [at_spot (1%nat, [4; 0; 1]%Z) (ErrDupName (b "a.b.M")); at_spot (1%nat, [5; 0]%Z) ErrEmptyEnum]) as -> by (apply (rejected_errors _ _ _ _ F); vm_compute; reflexivity).
  split; [reflexivity|].
  destruct (C68_errors_point_as_collected_partial demo_externs 10 pool_ab [file_names_faulty] p' _ demo_search reach_ab F) as [_ [Q|(_ & names & _ & Q)]].
  - assert (unknown pool_ab [file_names_faulty] = [file_names_faulty]) as E by (vm_compute; reflexivity). rewrite E in Q. exact Q.
  - exfalso. inversion Q as [|? ? _ Q1]; subst. inversion Q1 as [|? ? Q2 _]; subst. destruct Q2 as (f & _ & _ & [[_ Q2]|[Q2 _]]); [|discriminate Q2].
    inversion Q2 as [| | | | | |? ? ? ? ? ? ? Re| | | | |]; subst. inversion Re.
Qed.
