(** Which files a pool accepts (C62). *)
From Coq Require Import String.
From Verif Require Import Base BaseProofs Value Descr Proto Build VisitProofs EventProofs BuildFrame BuildNames BuildQuiet BuildResolve BuildInv BuildSafe DeclSpec DeclProofs PoolFacts ExampleFiles PoolMembers ResolveSpec Prop_Pool Prop_Resolve Prop_Defaults Prop_Safe ValidSpec AcceptSteps AcceptNames AcceptRefs AcceptResolve AcceptVisible.
From Coq Require Import List Lia.
Import ListNotations.
Local Open Scope list_scope.

(** the files of a call that the pool does not have yet *)
Definition unknown (p : pool) (files : list file) : list file :=
  filter (fun f => negb (existsb (fun g => bytes_eqb (fl_name g) (fl_name f)) (pool_files p))) files.
(** publicly imported files have no public imports of their own (C25 shows what
    happens otherwise) *)
Definition short_publics (fs : list file) : Prop := forall a b c, public_import fs a b -> ~ public_import fs b c.

Lemma unknown_dedup X p files : Inv X p -> unknown p files = dedup p files.
Proof.
  intros I. unfold unknown, dedup. apply filter_ext. intros f.
  pose proof (iv_fnames _ _ I) as E. unfold pool_events in E. rewrite file_events_flat in E. cbn [of_file off0] in E.
  destruct (existsb (fun g => bytes_eqb (fl_name g) (fl_name f)) (pool_files p)) eqn:B.
  - apply existsb_exists in B. destruct B as (g & G1 & G2). apply bytes_eqb_eq in G2.
    destruct (assoc_s (fl_name f) (p_file_names p)) eqn:A; [reflexivity|]. exfalso. apply assoc_s_None in A. apply A.
    rewrite E, (map_mapi_fst fl_name), <- G2. apply in_map. exact G1.
  - destruct (assoc_s (fl_name f) (p_file_names p)) as [i|] eqn:A; [|reflexivity]. exfalso. apply not_true_iff_false in B. apply B.
    apply assoc_s_In in A. apply (in_map fst) in A. rewrite E, (map_mapi_fst fl_name) in A. apply in_map_iff in A. destruct A as (g & G1 & G2).
    apply existsb_exists. exists g. split; [exact G2|]. cbn in G1. rewrite G1. apply bytes_eqb_refl.
Qed.

Section Core.
  Context (X : externs) (SO : search_ok X) (p : pool) (I : Inv X p) (fs : list file) (Hu : unknown_files p fs) (fuel : nat)
          (vis : nat -> nat -> Prop)
          (HV : forall p1, fold_res names_step (visit (offsets_of p) fs) (V p []) = Ok (V p1 []) -> seen_right X p fs p1 fuel vis).

  Lemma quiet_valid v : build_deduped X fuel p fs = Ok v -> v_errs v = [] -> valid X vis (pool_files p) fs.
  Proof.
    intros H Q. unfold build_deduped in H. apply rbind_ok in H. destruct H as [[p1 e1] [H1 H]].
    assert (e1 = []) as ->.
    { cbn [v_errs] in H. destruct e1; [reflexivity|]. inversion H; subst. discriminate. }
    cbn [v_errs] in H. apply rbind_ok in H. destruct H as [[p2 e2] [H2 H]].
    assert (e2 = []) as ->.
    { cbn [v_errs] in H. destruct e2; [reflexivity|]. inversion H; subst. discriminate. }
    pose proof (names_phase _ _ _ H1) as HN. split; [exact (names_are_valid X p I fs p1 HN)|].
    exists (fun n => assoc_s n (p_names p1)). split; [exact (names_are_table X p I fs p1 HN)|].
    intros j f Hf. exact (resolve_valid X SO p I fs Hu p1 H1 fuel vis (HV p1 H1) p2 H2 j f Hf).
  Qed.
  Lemma valid_quiet v : build_deduped X fuel p fs = Ok v -> valid X vis (pool_files p) fs ->
    v_errs v = [] \/ (v_errs v = [nowhere ErrOptions] /\ exists q, x_options X q fs = Ok false).
  Proof.
    intros H [NV (names & NO & FV)]. unfold build_deduped in H. apply rbind_ok in H. destruct H as [[p1 e1] [H1 H]].
    pose proof (names_accepted X p I fs Hu _ NV H1) as Q. cbn in Q. subst e1.
    pose proof (names_phase _ _ _ H1) as HN. pose proof (names_are_table X p I fs p1 HN) as NT.
    pose proof (tables_agree _ _ _ _ NV NO NT) as AG.
    cbn [v_errs] in H. apply rbind_ok in H. destruct H as [[p2 e2] [H2 H]].
    assert (forall j f, nth_error fs j = Some f -> file_valid X (raws p ++ fs) (fun n => assoc_s n (p_names p1)) vis (length (raws p) + j) f) as FV'.
    { intros j f Hf. eapply file_valid_agree; [exact AG|]. exact (FV j f Hf). }
    pose proof (resolve_accepted X SO p I fs Hu p1 H1 fuel vis (HV p1 H1) _ FV' H2) as Q. cbn in Q. subst e2.
    cbn [v_errs v_pool] in H. apply rbind_ok in H. destruct H as [ok [Ho H]]. destruct ok; [left; apply Ok_inj in H; subst v; reflexivity|].
    right. unfold push_err in H. cbn in H. apply Ok_inj in H. subst v. split; [reflexivity|]. eauto.
  Qed.
End Core.

Lemma pool_valid_nil X vis p : Inv X p -> valid X vis (pool_files p) [].
Proof.
  intros I. pose proof (NI_init p) as HN. pose proof (names_are_valid X p I [] p HN) as NV. pose proof (names_are_table X p I [] p HN) as NT.
  split; [exact NV|]. exists (fun n => assoc_s n (p_names p)). split; [exact NT|]. intros [|j] f E; discriminate.
Qed.

Section Cases.
  Context (X : externs) (fuel : nat) (p : pool) (files : list file) (SO : search_ok X) (R : reachable X p).
  Let new := unknown p files.
  Context (vis : nat -> nat -> Prop)
          (HV : forall p1, fold_res names_step (visit (offsets_of p) new) (V p []) = Ok (V p1 []) -> seen_right X p new p1 fuel vis).

  Lemma built_is_valid p' : build_files X fuel p files = Built p' -> valid X vis (pool_files p) new.
  Proof.
    intros H. pose proof (reachable_Inv _ _ SO R) as I. pose proof (unknown_dedup X p files I) as E. fold new in E.
    apply build_built in H. rewrite <- E in H. destruct H as [[H _]|[_ (v & H & Q & _)]].
    - rewrite H. apply pool_valid_nil. exact I.
    - eapply quiet_valid; try eassumption. rewrite E. apply dedup_unknown.
  Qed.
  Lemma valid_rejected p' es : build_files X fuel p files = Rejected p' es -> valid X vis (pool_files p) new ->
    es = [nowhere ErrOptions] /\ exists q, x_options X q new = Ok false.
  Proof.
    intros H V1. pose proof (reachable_Inv _ _ SO R) as I. pose proof (unknown_dedup X p files I) as E. fold new in E.
    apply build_rejected in H. rewrite <- E in H. destruct H as (v & H & <- & N & _).
    destruct (valid_quiet X SO p I new ltac:(rewrite E; apply dedup_unknown) fuel vis HV v H V1) as [Q|Q]; [contradiction|exact Q].
  Qed.
End Cases.

Lemma seen_sees X fuel p new : search_ok X -> Inv X p -> unknown_files p new -> short_publics (pool_files p ++ new) ->
  forall p1, fold_res names_step (visit (offsets_of p) new) (V p []) = Ok (V p1 []) -> seen_right X p new p1 fuel (sees (pool_files p ++ new)).
Proof. intros SO I U S p1 H1. exact (sees_right X p I new U p1 H1 fuel S). Qed.
Lemma seen_collected X fuel p new : search_ok X -> Inv X p -> unknown_files p new ->
  forall p1, fold_res names_step (visit (offsets_of p) new) (V p []) = Ok (V p1 []) -> seen_right X p new p1 fuel (collected fuel (pool_files p ++ new)).
Proof. intros SO I U p1 H1. exact (collected_right X SO p I new U p1 H1 fuel). Qed.

(** ** C62 *)

(** Files are accepted only if they are valid. *)
Theorem C62_accepted_is_valid X fuel p files p' : search_ok X -> reachable X p ->
  short_publics (pool_files p ++ unknown p files) ->
  build_files X fuel p files = Built p' ->
  valid X (sees (pool_files p ++ unknown p files)) (pool_files p) (unknown p files).
Proof.
  intros SO R S H. pose proof (reachable_Inv _ _ SO R) as I. eapply built_is_valid; try eassumption.
  apply seen_sees; auto. rewrite (unknown_dedup X p files I). apply dedup_unknown.
Qed.
Print Assumptions C62_accepted_is_valid.

(** Valid files are rejected only for their options. *)
Theorem C62_valid_not_rejected X fuel p files p' es : search_ok X -> reachable X p ->
  short_publics (pool_files p ++ unknown p files) ->
  valid X (sees (pool_files p ++ unknown p files)) (pool_files p) (unknown p files) ->
  build_files X fuel p files = Rejected p' es ->
  es = [nowhere ErrOptions] /\ exists q, x_options X q (unknown p files) = Ok false.
Proof.
  intros SO R S V1 H. pose proof (reachable_Inv _ _ SO R) as I. eapply valid_rejected; try eassumption.
  apply seen_sees; auto. rewrite (unknown_dedup X p files I). apply dedup_unknown.
Qed.
Print Assumptions C62_valid_not_rejected.

(** So a call that comes back (C34 says when) accepts exactly the valid sets of
    files, if there is nothing wrong with their options (C58). *)
Theorem C62_accepts_exactly_valid X fuel p files (depth : str -> nat) :
  search_ok X -> reachable X p ->
  (forall q gs, x_options X q gs = Ok true) ->
  (forall f, In f files -> known_syntax f) ->
  (forall f fd s, In f files -> field_in f fd -> fp_type fd = TBytes -> fp_default fd = Some s -> ascii s /\ octal_small s) ->
  (forall f d, In f (pool_files p ++ files) -> imports_publicly f d -> (depth d < depth (fl_name f))%nat) ->
  (forall f, In f (pool_files p ++ files) -> (depth (fl_name f) < fuel)%nat) ->
  short_publics (pool_files p ++ unknown p files) ->
  ((exists p', build_files X fuel p files = Built p') <->
   valid X (sees (pool_files p ++ unknown p files)) (pool_files p) (unknown p files)) /\
  ((exists p' es, build_files X fuel p files = Rejected p' es) <->
   ~ valid X (sees (pool_files p ++ unknown p files)) (pool_files p) (unknown p files)).
Proof.
  intros SO R Ho A1 A2 A3 A4 S.
  assert (forall q gs, exists r, x_options X q gs = Ok r) as Ho' by eauto.
  pose proof (C34_comes_back_partial X fuel p files depth SO R Ho' A1 A2 A3 A4) as B.
  assert (valid X (sees (pool_files p ++ unknown p files)) (pool_files p) (unknown p files) -> forall p' es, build_files X fuel p files <> Rejected p' es) as NR.
  { intros V1 p' es H. destruct (C62_valid_not_rejected X fuel p files p' es SO R S V1 H) as [_ [q Q]]. rewrite Ho in Q. discriminate. }
  split; split.
  - intros [p' H]. eapply C62_accepted_is_valid; eassumption.
  - intros V1. destruct B as [B|(p' & es & B)]; [exact B|]. exfalso. exact (NR V1 _ _ B).
  - intros (p' & es & H) V1. exact (NR V1 _ _ H).
  - intros NV. destruct B as [[p' B]|B]; [|exact B]. exfalso. apply NV. eapply C62_accepted_is_valid; eassumption.
Qed.
Print Assumptions C62_accepts_exactly_valid.

(** For all public imports, with the set of files the resolver collects in the
    place of what a file sees. *)
Theorem C62_accepts_as_collected X fuel p files : search_ok X -> reachable X p ->
  let new := unknown p files in
  let vis := collected fuel (pool_files p ++ new) in
  (forall p', build_files X fuel p files = Built p' -> valid X vis (pool_files p) new) /\
  (forall p' es, build_files X fuel p files = Rejected p' es -> valid X vis (pool_files p) new ->
     es = [nowhere ErrOptions] /\ exists q, x_options X q new = Ok false).
Proof.
  intros SO R new vis. pose proof (reachable_Inv _ _ SO R) as I.
  assert (unknown_files p new) as U by (unfold new; rewrite (unknown_dedup X p files I); apply dedup_unknown). split.
  - intros p' H. eapply built_is_valid; try eassumption. apply seen_collected; auto.
  - intros p' es H V1. eapply valid_rejected; try eassumption. apply seen_collected; auto.
Qed.
Print Assumptions C62_accepts_as_collected.

(** Not vacuous: the two example files are valid, one after the other... *)
Lemma no_publics fs : Forall (fun f => fl_public f = []) fs -> short_publics fs.
Proof.
  intros F a b c (f & k & Ha & Hk & _) _. apply nth_error_In in Ha. rewrite Forall_forall in F. rewrite (F _ Ha) in Hk. destruct Hk.
Qed.
Lemma demo_valid f p' : build_files demo_externs 10 pool_ab [f] = Built p' -> unknown pool_ab [f] = [f] -> fl_public f = [] ->
  valid demo_externs (sees (pool_files pool_ab ++ [f])) (pool_files pool_ab) [f].
Proof.
  intros B E P. assert (pool_files pool_ab = [file_ab]) as PF by (vm_compute; reflexivity).
  pose proof (C62_accepted_is_valid demo_externs 10 pool_ab [f] p' demo_search reach_ab) as H. rewrite E in H. apply H; [|exact B].
  rewrite PF. apply no_publics. repeat constructor. exact P.
Qed.
Example C62_valid_files :
  valid demo_externs (sees (pool_files pool_ab ++ [file_cd])) (pool_files pool_ab) [file_cd].
Proof.
  apply (demo_valid file_cd pool_abcd built_abcd); vm_compute; reflexivity.
Qed.
(** ... a file with the field number 19000 is not, which is seen from the rules,
    and so it is rejected *)
Definition file_19000 : file :=
  File (b "n.proto") (b "n") [] [] [] [DP (b "M") [fld "v" 19000 Optional TInt32 ""] [] [] [] [] [] false []] [] [] [] None.
Lemma fields_19000 path scope fd : declares file_19000 path scope (IField fd) \/ declares file_19000 path scope (IExt fd) -> fp_type fd = TInt32.
Proof.
  intros Hd.
  assert (forall pa sc m, message_at file_19000 pa sc m -> In m (fl_messages file_19000)) as Top.
  { intros pa sc m Hm. induction Hm as [j m H|pa sc m j n H IH Hn]; [exact (nth_error_In _ _ H)|].
    cbn in IH. destruct IH as [<- |[]]. destruct j; discriminate. }
  destruct Hd as [Hd|Hd]; inversion Hd; subst; try (destruct j; discriminate);
    match goal with H : message_at _ _ _ _ |- _ => apply Top in H; cbn in H; destruct H as [<- |[]] end.
  - destruct j as [|[|]]; cbn in *; try discriminate. match goal with H : Some _ = Some _ |- _ => inversion H; subst end. reflexivity.
  - destruct j; discriminate.
Qed.
Example C62_invalid_file : exists p' es, build_files demo_externs 10 pool_ab [file_19000] = Rejected p' es.
Proof.
  assert (unknown pool_ab [file_19000] = [file_19000]) as E by (vm_compute; reflexivity).
  assert (pool_files pool_ab = [file_ab]) as P by (vm_compute; reflexivity).
  destruct (C62_accepts_exactly_valid demo_externs 10 pool_ab [file_19000] (fun _ => O) demo_search reach_ab) as [_ B].
  - reflexivity.
  - intros f [<- |[]]. left. reflexivity.
  - intros f fd s [<- |[]] (path & scope & Hd) T _. exfalso.
    rewrite (fields_19000 _ _ _ Hd) in T. discriminate T.
  - rewrite P. intros f d [<- |[<- |[]]] (k & _ & []).
  - intros. apply Nat.lt_0_succ.
  - rewrite E, P. apply no_publics. repeat constructor.
  - apply B. rewrite E. intros [_ (names & _ & V1)]. specialize (V1 0%nat _ eq_refl).
    destruct (fv_fields _ _ _ _ _ _ V1 _ _ _ (ma_top file_19000 0 _ eq_refl)) as (_ & _ & F).
    destruct (F _ (or_introl eq_refl)) as ((_ & N & _) & _). apply N. cbn. lia.
Qed.

(** ** What the rules do not say *)

(** Two extensions of the same message with the same number are accepted, in one
    file or in two: nothing compares them (resolve.rs:350-416). *)
Definition file_twice : file :=
  File (b "tw.proto") (b "tw") [b "ab.proto"] [] [] [] [] []
    [FP (b "one") (Some (b ".a.b.M")) 150 Optional TInt32 [] None None None None false;
     FP (b "two") (Some (b ".a.b.M")) 150 Optional TString [] None None None None false] None.
Theorem C62_same_extension_number_accepted :
  (exists p', build_files demo_externs 10 pool_ab [file_twice] = Built p') /\ valid demo_externs (sees (pool_files pool_ab ++ [file_twice])) (pool_files pool_ab) [file_twice].
Proof.
  destruct (build_files demo_externs 10 pool_ab [file_twice]) as [p'| | |] eqn:F;
    try (exfalso; vm_compute in F; discriminate).
  split; [eauto|].
  apply (demo_valid file_twice p' F); vm_compute; reflexivity.
Qed.
Print Assumptions C62_same_extension_number_accepted.
