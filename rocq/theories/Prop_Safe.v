(** C34: adding files to a pool comes back with Ok or an error -- under three
    conditions on the files, each of which is needed. *)
From Coq Require Import String.
From Verif Require Import Base BaseProofs Value Descr Proto Build VisitProofs EventProofs BuildFrame BuildNames BuildQuiet BuildResolve BuildInv DeclSpec DeclProofs PoolFacts PoolMembers BuildSafe ExampleFiles Prop_Defaults.
From Coq Require Import List Lia.
Import ListNotations.
Local Open Scope list_scope.
Local Open Scope N_scope.

(** file [f] imports the file named [d] publicly *)
Definition imports_publicly (f : file) (d : str) : Prop :=
  exists k, nth_error (fl_deps f) k = Some d /\ In (Z.of_nat k) (fl_public f).
(** [fd] is a field or an extension declared somewhere in [f] *)
Definition field_in (f : file) (fd : fproto) : Prop :=
  exists path scope, declares f path scope (IField fd) \/ declares f path scope (IExt fd).
(** the syntax is one the library knows *)
Definition known_syntax (f : file) : Prop :=
  fl_syntax f = None \/ fl_syntax f = Some (b "proto2") \/ fl_syntax f = Some (b "proto3").

Lemma known_file_syntax f : known_syntax f -> file_syntax f <> None.
Proof.
  unfold file_syntax. intros [-> |[-> | ->]]; vm_compute; discriminate.
Qed.

(** the file name table says where each file is *)
Lemma fnames_name X p fs d i : Inv X p ->
  assoc_s d (p_file_names p ++ flat_map ev_file (visit (offsets_of p) fs)) = Some i ->
  exists f, nth_error (pool_files p ++ fs) i = Some f /\ fl_name f = d.
Proof.
  intros I H. apply assoc_s_In in H. apply in_app_or in H.
  pose proof (raws_len p) as RL. change (raws p) with (pool_files p) in RL.
  destruct H as [H|H].
  - rewrite (iv_fnames _ _ I) in H. apply in_flat_map in H. destruct H as [e [He Hd]].
    destruct e; cbn in Hd; try contradiction. destruct Hd as [Hd|[]]. inversion Hd; subst.
    apply visit_files_in in He. destruct He as [k [Ei Hk]]. cbn in Ei. subst i.
    exists f. split; [|reflexivity]. rewrite nth_app_l; [exact Hk|]. apply nth_error_Some. unfold pool_files, raws in *. congruence.
  - apply in_flat_map in H. destruct H as [e [He Hd]].
    destruct e; cbn in Hd; try contradiction. destruct Hd as [Hd|[]]. inversion Hd; subst.
    apply visit_files_in in He. destruct He as [k [Ei Hk]]. cbn in Ei. subst i.
    exists f. split; [|reflexivity]. rewrite nth_error_app2 by lia. replace (length (p_files p) + k - length (pool_files p))%nat with k by lia.
    exact Hk.
Qed.

(** The positive half.  [depth] orders the files of the pool and the new ones so
    that a public import goes down, i.e. public imports have no cycle; [fuel]
    is the stack needed, one frame per level.  [partial]: the options phase
    (interpreting uninterpreted options) is not modelled and is assumed to come
    back. *)
Theorem C34_comes_back_partial X fuel p fs (depth : str -> nat) :
  search_ok X -> reachable X p ->
  (forall q gs, exists r, x_options X q gs = Ok r) ->
  (forall f, In f fs -> known_syntax f) ->
  (forall f fd s, In f fs -> field_in f fd -> fp_type fd = TBytes -> fp_default fd = Some s -> ascii s /\ octal_small s) ->
  (forall f d, In f (pool_files p ++ fs) -> imports_publicly f d -> (depth d < depth (fl_name f))%nat) ->
  (forall f, In f (pool_files p ++ fs) -> (depth (fl_name f) < fuel)%nat) ->
  (exists p', build_files X fuel p fs = Built p') \/ (exists p' es, build_files X fuel p fs = Rejected p' es).
Proof.
  intros SO Rc Ho Hsy Hd Hr Hf. pose proof (reachable_Inv _ _ SO Rc) as I.
  assert (forall f, In f (dedup p fs) -> In f fs) as Sub by (intros f Hin; apply filter_In in Hin; apply Hin).
  assert (forall f, In f (pool_files p ++ dedup p fs) -> In f (pool_files p ++ fs)) as Sub2.
  { intros f Hin. apply in_app_or in Hin. apply in_or_app. destruct Hin as [Hin|Hin]; [left; exact Hin|right; exact (Sub _ Hin)]. }
  set (rank := fun i => match nth_error (pool_files p ++ dedup p fs) i with Some f => depth (fl_name f) | None => O end).
  destruct (build_safe X fuel rank p (dedup p fs)) as [v E].
  - exact I.
  - apply dedup_unknown.
  - intros f Hin. apply known_file_syntax, Hsy, Sub, Hin.
  - intros e He.
    assert (forall fd, (ev_item e = Some (IField fd) \/ ev_item e = Some (IExt fd)) -> calm X fd) as G.
    { intros fd Hi s T1 T2 T3. destruct (visit_ok _ _ _ He) as [k [f [Hk [_ Q]]]].
      assert (field_in f fd) as Fi.
      { destruct Hi as [Hi|Hi]; rewrite Hi in Q; destruct Q as [scope [A _]]; exists (ev_path e), scope; auto. }
      destruct (Hd f fd s (Sub _ (nth_error_In _ _ Hk)) Fi T1 T3) as [A O].
      exact (C32_malformed_is_error_partial _ _ A O). }
    destruct e; try exact Logic.I; apply G; cbn; auto.
  - intros a c [f [j [d [A [B [C D]]]]]]. destruct (fnames_name _ _ _ _ _ I D) as [g [Hg <-]].
    change (raws p) with (pool_files p) in A. unfold rank. rewrite A, Hg.
    apply Hr; [apply Sub2; exact (nth_error_In _ _ A)|]. exists j. split; [exact B|].
    unfold is_public in C. apply existsb_exists in C. destruct C as [z [Hz Ez]]. apply Z.eqb_eq in Ez. subst z. exact Hz.
  - intros i Hi. change (raws p) with (pool_files p) in Hi. unfold rank.
    destruct (nth_error (pool_files p ++ dedup p fs) i) as [f|] eqn:En; [|apply nth_error_None in En; lia].
    apply Hf, Sub2. exact (nth_error_In _ _ En).
  - exact Ho.
  - unfold build_files. fold (dedup p fs). destruct (dedup p fs) as [|f fs']; [eauto|]. rewrite E.
    destruct (v_errs v); [eauto|right; eauto].
Qed.
Print Assumptions C34_comes_back_partial.

(** The hypotheses hold of a pool with two files and of three new ones, one of
    them with a public import, one with many mistakes. *)
Definition wild_file : file :=
  File (b "wild.proto") (b "a.b.M") [b "missing.proto"; b "cd.proto"] [1; -7]%Z [99]%Z
    [DP (b "W") [fld "x" 0 Optional TMessage ""; fld "x" 0 Optional TEnum "..nope";
                 FP (b "y") (Some (b "Z")) (-1)%Z Repeated TBytes [] (Some (b "\377\q")) (Some 9%Z) None None true]
        [] [] [EP (b "Empty") [] [] None] [] [] true []]
    [] [SP (b "S") [MP (b "m") (b "W.x") []]] [fld "q" 5 Required TGroup "W"] (Some (b "proto3")).
Definition depth_demo (n : str) : nat := if bytes_eqb n (b "wild.proto") then 1%nat else 0%nat.
Example C34_nonvacuous :
  (forall q gs, exists r, x_options demo_externs q gs = Ok r) /\
  (forall f, In f [wild_file; wild_file] -> known_syntax f) /\
  (forall f fd s, In f [wild_file; wild_file] -> field_in f fd -> fp_type fd = TBytes -> fp_default fd = Some s -> ascii s /\ octal_small s) /\
  (forall f d, In f (pool_files pool_abcd ++ [wild_file; wild_file]) -> imports_publicly f d -> (depth_demo d < depth_demo (fl_name f))%nat) /\
  (forall f, In f (pool_files pool_abcd ++ [wild_file; wild_file]) -> (depth_demo (fl_name f) < 2)%nat) /\
  exists p' es, build_files demo_externs 2 pool_abcd [wild_file; wild_file] = Rejected p' es /\ (8 < length es)%nat.
Proof.
  split; [intros; exists true; reflexivity|].
  split; [intros f [<- |[<- |[]]]; right; right; reflexivity|].
  split.
  { intros f fd s Hf [path [scope Hd]] T D.
    assert (f = wild_file) as -> by (destruct Hf as [<- |[<- |[]]]; reflexivity). clear Hf.
    assert (forall path scope m, message_at wild_file path scope m -> In m (fl_messages wild_file)) as Top.
    { intros pa sc m Hm. induction Hm as [j m H|pa sc m j n H IH Hn]; [exact (nth_error_In _ _ H)|].
      cbn in IH. destruct IH as [<- |[]]. destruct j; discriminate. }
    assert (s = b "\377\q") as ->.
    { destruct Hd as [Hd|Hd]; inversion Hd; subst.
      - match goal with H : message_at _ _ _ _ |- _ => apply Top in H; cbn in H; destruct H as [<- |[]] end.
        destruct j as [|[|[|[|]]]]; cbn in *; try discriminate; match goal with H : Some _ = Some _ |- _ => inversion H; subst end; try discriminate;
          cbn in D; congruence.
      - match goal with H : message_at _ _ _ _ |- _ => apply Top in H; cbn in H; destruct H as [<- |[]] end.
        destruct j; discriminate.
      - destruct j as [|[|]]; cbn in *; try discriminate. match goal with H : Some _ = Some _ |- _ => inversion H; subst end. discriminate. }
    exact (conj (proj1 C32_total_nonvacuous) (proj1 (proj2 C32_total_nonvacuous))). }
  assert (pool_files pool_abcd = [file_ab; file_cd]) as -> by (vm_compute; reflexivity).
  split.
  { intros f d Hf [k [Hk Hp]]. destruct Hf as [<- |[<- |[<- |[<- |[]]]]].
    - destruct Hp.
    - destruct Hp.
    - destruct k as [|[|[|k]]]; cbn in Hk; try discriminate; inversion Hk; subst; cbn in Hp; [destruct Hp as [Hp|[Hp|[]]]; discriminate|].
      vm_compute. lia.
    - destruct k as [|[|[|k]]]; cbn in Hk; try discriminate; inversion Hk; subst; cbn in Hp; [destruct Hp as [Hp|[Hp|[]]]; discriminate|].
      vm_compute. lia. }
  split; [intros f [<- |[<- |[<- |[<- |[]]]]]; vm_compute; lia|].
  eexists _, _. split; [vm_compute; reflexivity|]. vm_compute. lia.
Qed.

(** ** Without the conditions the claim is false of the code *)

(** a file with a syntax the library does not know panics: the error's label is
    made before the file is in the pool (names.rs:59-69, error.rs:775) *)
Definition file_editions : file := File (b "e.proto") [] [] [] [] [] [] [] [] (Some (b "editions")).
(** a file that imports itself publicly recurses without end (resolve.rs:418-430) *)
Definition file_loop : file := File (b "l.proto") [] [b "l.proto"] [0%Z] [] [] [] [] [] None.
(** an octal escape above [\377] in a bytes default overflows (resolve.rs:813-829) *)
Definition file_octal : file :=
  File (b "o.proto") [] [] [] [] [DP (b "O") [FP (b "x") None 1 Optional TBytes [] (Some (b "\777")) None None None false] [] [] [] [] [] false []]
    [] [] [] None.

Lemma loop_public fuel p deps : nth_error (p_files p) 0 = Some (FileI Proto2 file_loop [0%nat] []) ->
  p_file_names p = [(b "l.proto", 0%nat)] -> In 0%nat deps -> resolve_public fuel p deps 0 = Fuel.
Proof.
  intros Hf Hn. revert deps. induction fuel as [|fuel IH]; intros deps Hd; [reflexivity|].
  cbn [resolve_public]. unfold at_. rewrite Hf. cbn [rbind fi_raw file_loop fl_deps]. rewrite Hn.
  change (assoc_s (b "l.proto") [(b "l.proto", 0%nat)]) with (Some 0%nat).
  change (is_public _ 0) with true. cbv iota.
  assert (set_insert 0%nat deps = (deps, false)) as ->.
  { unfold set_insert. replace (existsb (Nat.eqb 0) deps) with true; [reflexivity|].
    symmetry. apply existsb_exists. exists 0%nat. auto. }
  cbn [negb]. rewrite (IH deps Hd). reflexivity.
Qed.

Theorem C34_refuted_panic_and_overflow :
  build_files demo_externs 10 empty_pool [file_editions] = Crashed /\
  (forall fuel, build_files demo_externs fuel empty_pool [file_loop] = Overflow) /\
  build_files demo_externs 10 empty_pool [file_octal] = Crashed.
Proof.
  split; [vm_compute; reflexivity|]. split; [|vm_compute; reflexivity].
  intros fuel. unfold build_files. cbn [filter p_file_names empty_pool assoc_s].
  assert (build_deduped demo_externs fuel empty_pool [file_loop] = Fuel) as ->; [|reflexivity].
  unfold build_deduped.
  change (visit (offsets_of empty_pool) [file_loop]) with [EvFile [] 0 file_loop].
  assert (fold_res names_step [EvFile [] 0 file_loop] (V empty_pool []) = Ok (V (Pool [] [(b "l.proto", 0%nat)] [FileI Proto2 file_loop [] []] [] [] [] []) [])) as -> by (vm_compute; reflexivity).
  cbn [rbind v_errs fold_res resolve_step]. unfold resolve_file. cbn [fl_deps file_loop resolve_deps v_pool p_file_names].
  change (assoc_s (b "l.proto") [(b "l.proto", 0%nat)]) with (Some 0%nat). cbv iota.
  unfold at_. cbn [p_files nth_error rbind].
  rewrite loop_public; [reflexivity|reflexivity|reflexivity|left; reflexivity].
Qed.
Print Assumptions C34_refuted_panic_and_overflow.
