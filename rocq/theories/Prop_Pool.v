(** Theorems about descriptor pools as a whole: C21, C22, C23, C29, C35, C36, C51.

    [reachable X p]: [p] is what any sequence of add calls, failed ones
    included, makes of the empty pool (BuildInv.v).  [pool_files p] is the list
    of file descriptors in [p]; what they declare is specified in DeclSpec.v. *)
From Coq Require Import String.
From Verif Require Import Base BaseProofs Value Descr Proto Build VisitProofs EventProofs BuildFrame BuildNames BuildQuiet BuildResolve BuildInv DeclSpec DeclProofs PoolFacts PoolExts WalkOnce ExampleFiles.
From Coq Require Import List.
Import ListNotations.
Local Open Scope list_scope.
Local Open Scope N_scope.

(** ** C21: full names are unique *)

(** Two declarations in a pool with the same full name are the same declaration. *)
Theorem C21_full_names_unique X p :
  search_ok X -> reachable X p ->
  forall i j fi fj pi pj n it jt,
    nth_error (pool_files p) i = Some fi -> nth_error (pool_files p) j = Some fj ->
    declares_name fi pi n it -> declares_name fj pj n jt ->
    i = j /\ pi = pj /\ it = jt.
Proof.
  intros SO R i j fi fj pi pj n it jt Hi Hj [s [D E]] [s' [D' E']].
  pose proof (reachable_Inv _ _ SO R) as I.
  destruct (declared_event _ _ _ _ _ _ Hi D) as [e [He [A1 [A2 [A3 A4]]]]].
  destruct (declared_event _ _ _ _ _ _ Hj D') as [e' [He' [B1 [B2 [B3 B4]]]]].
  assert (e = e') as <-.
  { eapply event_unique; eauto. congruence. }
  repeat split; congruence.
Qed.
Print Assumptions C21_full_names_unique.

(** No declaration has the name of a package of the pool. *)
Theorem C21_packages_apart X p :
  search_ok X -> reachable X p ->
  forall i j fi fj path n it,
    nth_error (pool_files p) i = Some fi -> nth_error (pool_files p) j = Some fj ->
    declares_name fi path n it -> package_prefix fj n -> False.
Proof.
  intros SO R i j fi fj path n it Hi Hj [s [D E]] [P Q].
  pose proof (reachable_Inv _ _ SO R) as I.
  destruct (declared_event _ _ _ _ _ _ Hi D) as [e [He [A1 [A2 [A3 A4]]]]].
  pose proof (event_lookup _ _ _ _ I He A4) as L. rewrite A3, <- E in L.
  assert (In n (pkg_prefixes fj)) as Hp.
  { unfold pkg_prefixes. destruct (fl_package fj) eqn:K; [contradiction|]. rewrite <- K in *. apply in_or_app.
    destruct Q as [Q|[r Q]]; [right; left; exact Q|left].
    apply before_dots_in. exists n, r. split; [exact Q|reflexivity]. }
  destruct (iv_pkg2 _ _ I _ _ _ _ (file_event _ _ _ Hj) Hp) as [d [Hd K]].
  apply (nodup_assoc _ _ _ (iv_nodup _ _ I)) in Hd. rewrite Hd in L. apply Some_inj in L. subst d.
  destruct e; discriminate.
Qed.
Print Assumptions C21_packages_apart.

(** So files that would redefine a name are not accepted: after an add that
    succeeds, the pool holds its old files and the new ones, and no two of their
    declarations clash. *)
Theorem C21_redefinition_rejected X fuel p fs p' :
  search_ok X -> reachable X p -> plain fs -> build_files X fuel p fs = Built p' ->
  pool_files p' = pool_files p ++ dedup p fs /\
  forall i j fi fj pi pj n it jt,
    nth_error (pool_files p ++ dedup p fs) i = Some fi -> nth_error (pool_files p ++ dedup p fs) j = Some fj ->
    declares_name fi pi n it -> declares_name fj pj n jt ->
    i = j /\ pi = pj /\ it = jt.
Proof.
  intros SO R P H. pose proof (reachable_Inv _ _ SO R) as I.
  pose proof (built_files X SO _ _ _ _ I H) as E. split; [exact E|].
  rewrite <- E. apply (C21_full_names_unique X p' SO). eapply re_built; eassumption.
Qed.
Print Assumptions C21_redefinition_rejected.

Example C21_nonvacuous :
  reachable demo_externs pool_abcd /\
  (exists f, nth_error (pool_files pool_abcd) 0 = Some f /\
     declares_name f [4%Z; 0%Z; 3%Z; 0%Z] (b "a.b.M.Inner") (IMessage (DP (b "Inner") [fld "v" 1 Optional TBytes ""] [] [] [] [] [] false []))) /\
  (* a file redefining a.b.M.Inner is rejected *)
  exists p' es, build_files demo_externs 10 pool_abcd
    [File (b "z.proto") (b "a.b.M") [] [] [] [DP (b "Inner") [] [] [] [] [] [] false []] [] [] [] None]
    = Rejected p' es /\ In (ErrDupName (b "a.b.M.Inner")) (map er_what es).
Proof.
  split; [exact reach_abcd|]. split.
  - exists file_ab. split; [reflexivity|]. exists (b "a.b.M"). split; [|reflexivity].
    constructor. apply (ma_nested file_ab [4%Z; 0%Z] (b "a.b") (nth 0 (fl_messages file_ab) (DP [] [] [] [] [] [] [] false [])) 0); [|reflexivity].
    apply (ma_top file_ab 0). reflexivity.
  - eexists. eexists. split; [vm_compute; reflexivity|]. vm_compute. auto.
Qed.

(** ** C22: failed adds *)

(** everything a pool shows but the extension lists of its messages *)
Definition same_apart_from_extension_lists (p q : pool) : Prop :=
  (forall n, get_by_name q n = get_by_name p n) /\
  (forall n, get_file_by_name q n = get_file_by_name p n) /\
  p_files q = p_files p /\ p_enums q = p_enums p /\ p_exts q = p_exts p /\ p_services q = p_services p /\
  length (p_messages q) = length (p_messages p) /\
  forall i m, nth_error (p_messages p) i = Some m -> exists xs,
    nth_error (p_messages q) i = Some (MessageI (m_id m) (m_parent m) xs (m_fields m) (m_numbers m) (m_names m)
                                                (m_jsons m) (m_oneofs m) (m_map_entry m)).

(** Full statement wanted: the pool is unchanged.  Proved: it is unchanged but
    for the extension lists of messages, which the code can damage
    ([C22_refuted_extension_lost], [C22_refuted_extension_left]). *)
Theorem C22_failed_add_partial X fuel p fs p' es :
  search_ok X -> reachable X p -> plain fs -> build_files X fuel p fs = Rejected p' es ->
  same_apart_from_extension_lists p p'.
Proof.
  intros SO R P H. pose proof (reachable_Inv _ _ SO R) as I.
  pose proof (rejected_same X _ _ _ _ _ I P H) as S. pose proof (same_lengths _ _ S) as L.
  destruct S as [E1 [E2 [E3 [E4 [E5 [E6 E7]]]]]].
  unfold same_apart_from_extension_lists, get_file_by_name. rewrite E2. repeat split; auto.
  - intros n. rewrite !get_by_name_undot, E1. reflexivity.
  - intros i m Hm. assert (nth_error (map strip (p_messages p')) i = Some (strip m)) as Q by (rewrite E7, nth_error_map, Hm; reflexivity).
    apply nth_map_some in Q. destruct Q as [m' [Hm' Q]]. exists (m_exts m'). rewrite Hm'. f_equal.
    destruct m, m'. unfold strip in Q. cbn in *. inversion Q; subst. reflexivity.
Qed.
Print Assumptions C22_failed_add_partial.

(** The pool is unchanged altogether when every extension it lists has an index
    below the number of messages and the rejected files declare no extensions. *)
Theorem C22_failed_add_unchanged X fuel p fs p' es :
  search_ok X -> reachable X p -> plain fs ->
  (forall f path scope x, In f fs -> ~ declares f path scope (IExt x)) ->
  (forall i m x, nth_error (p_messages p) i = Some m -> In x (m_exts m) -> (x < length (p_messages p))%nat) ->
  build_files X fuel p fs = Rejected p' es -> p' = p.
Proof. intros SO R P N B H. eapply rejected_exact; try eassumption. exact (reachable_Inv _ _ SO R). Qed.
Print Assumptions C22_failed_add_unchanged.

Definition bad_file : file :=
  File (b "bad.proto") (b "bad") [] [] [] [DP (b "B") [fld "x" 1 Optional TMessage "NoSuchType"] [] [] [] [] [] false []]
    [] [] [] None.
Example C22_nonvacuous :
  reachable demo_externs pool_abcd /\ plain [bad_file] /\
  (forall f path scope x, In f [bad_file] -> ~ declares f path scope (IExt x)) /\
  (forall i m x, nth_error (p_messages pool_abcd) i = Some m -> In x (m_exts m) -> (x < length (p_messages pool_abcd))%nat) /\
  map m_exts (p_messages pool_abcd) = [[0; 1]; []; []]%nat /\
  exists es, build_files demo_externs 10 pool_abcd [bad_file] = Rejected pool_abcd es.
Proof.
  split; [exact reach_abcd|]. split; [repeat constructor; discriminate|]. split.
  { intros f path scope x [<- |[]] D. inversion D as [| | |path' scope' m j x' M H| j x' H| | | |]; subst.
    - assert (forall path scope m, message_at bad_file path scope m -> dp_exts m = []) as Q.
      { clear. intros path scope m M. induction M as [j m H|path scope m j n M IH H].
        - destruct j as [|[|j]]; cbn in H; try discriminate. apply Some_inj in H. subst. reflexivity.
        - exfalso. assert (forall path scope m, message_at bad_file path scope m -> dp_nested m = []) as Q.
          { clear. intros path scope m M. induction M as [j m H|path scope m j n M IH H].
            - destruct j as [|[|j]]; cbn in H; try discriminate. apply Some_inj in H. subst. reflexivity.
            - rewrite IH in H. destruct j; discriminate. }
          rewrite (Q _ _ _ M) in H. destruct j; discriminate. }
      rewrite (Q _ _ _ M) in H. destruct j; discriminate.
    - destruct j; discriminate. }
  split.
  { intros i m x Hm Hx. apply (nth_map_some m_exts) in Hx || idtac.
    assert (nth_error (map m_exts (p_messages pool_abcd)) i = Some (m_exts m)) as Q by (rewrite nth_error_map, Hm; reflexivity).
    change (map m_exts (p_messages pool_abcd)) with [[0; 1]; []; []]%nat in Q.
    change (length (p_messages pool_abcd)) with 3%nat.
    destruct i as [|[|[|i]]]; cbn in Q; [| | |destruct i; discriminate]; apply Some_inj in Q; rewrite <- Q in Hx; cbn in Hx;
      repeat destruct Hx as [<- |Hx]; try contradiction; lia. }
  split; [vm_compute; reflexivity|]. eexists. vm_compute. reflexivity.
Qed.

(** The code does not restore extension lists in general: a failed add can make
    an extension of an unrelated, older message disappear, because indices of
    extensions are compared with the number of messages. *)
Definition file_e : file :=
  File (b "e.proto") [] [] [] [] [DP (b "M") [] [] [] [] [(100, 200)%Z] [] false []] [] []
    [FP (b "e0") (Some (b "M")) 100 Optional TInt32 [] None None None None false;
     FP (b "e1") (Some (b "M")) 101 Optional TInt32 [] None None None None false] None.
Theorem C22_refuted_extension_lost :
  ~ (forall X fuel p fs p' es d n, search_ok X -> reachable X p -> plain fs ->
       build_files X fuel p fs = Rejected p' es ->
       get_ext (p_tables p') d n = get_ext (p_tables p) d n).
Proof.
  intros H. set (p := built (build_files demo_externs 10 empty_pool [file_e])).
  assert (reachable demo_externs p) as R.
  { apply (re_built _ 10 empty_pool [file_e] _ (re_empty _)); [repeat constructor; discriminate|vm_compute; reflexivity]. }
  set (r := build_files demo_externs 10 p [bad_file]).
  assert (exists p' es, r = Rejected p' es /\ get_ext (p_tables p') 0 101 = None) as [p' [es [E1 E2]]].
  { eexists. eexists. split; vm_compute; reflexivity. }
  specialize (H demo_externs 10%nat p [bad_file] p' es 0%nat 101 demo_search R).
  rewrite E2 in H. assert (plain [bad_file]) as P by (repeat constructor; discriminate).
  specialize (H P E1). vm_compute in H. discriminate.
Qed.
Print Assumptions C22_refuted_extension_lost.

(** And it can leave a message with the index of an extension that does not exist. *)
Definition bad_ext_file : file :=
  File (b "badx.proto") (b "bad") [b "ab.proto"] [] [] [DP (b "B") [fld "x" 1 Optional TMessage "NoSuchType"] [] [] [] [] [] false []]
    [] [] [FP (b "e0") (Some (b ".a.b.M")) 100 Optional TInt32 [] None None None None false] None.
Theorem C22_refuted_extension_left :
  ~ (forall X fuel p fs p' es, search_ok X -> reachable X p -> plain fs ->
       build_files X fuel p fs = Rejected p' es ->
       (forall i m x, nth_error (p_messages p) i = Some m -> In x (m_exts m) -> (x < length (p_exts p))%nat) ->
       (forall i m x, nth_error (p_messages p') i = Some m -> In x (m_exts m) -> (x < length (p_exts p'))%nat)).
Proof.
  intros H. set (r := build_files demo_externs 10 pool_ab [bad_ext_file]).
  assert (exists p' es m, r = Rejected p' es /\ nth_error (p_messages p') 0 = Some m /\ m_exts m = [O] /\ p_exts p' = [])
    as [p' [es [m [E1 [E2 [E3 E4]]]]]].
  { do 3 eexists. split; [vm_compute; reflexivity|]. split; [vm_compute; reflexivity|]. split; vm_compute; reflexivity. }
  assert (plain [bad_ext_file]) as P by (repeat constructor; discriminate).
  specialize (H demo_externs 10%nat pool_ab [bad_ext_file] p' es demo_search reach_ab P E1).
  assert (O < length (p_exts p'))%nat as Q.
  { apply (H ltac:(intros i x y Hx Hy;
      assert (nth_error (map m_exts (p_messages pool_ab)) i = Some (m_exts x)) as Q by (rewrite nth_error_map, Hx; reflexivity);
      change (map m_exts (p_messages pool_ab)) with [@nil nat; []] in Q;
      destruct i as [|[|i]]; cbn in Q; [| |destruct i; discriminate]; apply Some_inj in Q; rewrite <- Q in Hy; destruct Hy) 0%nat m O E2).
    rewrite E3. left. reflexivity. }
  rewrite E4 in Q. cbn in Q. lia.
Qed.
Print Assumptions C22_refuted_extension_left.

(** ** C23: adding known files again *)

(** Files whose names are known are skipped: nothing changes and the call succeeds. *)
Theorem C23_known_files_skipped X fuel p fs :
  (forall f, In f fs -> get_file_by_name p (fl_name f) <> None) ->
  build_files X fuel p fs = Built p.
Proof.
  intros H. unfold build_files. fold (dedup p fs).
  assert (dedup p fs = []) as ->; [|reflexivity].
  apply filter_none. intros f Hf. specialize (H f Hf). unfold get_file_by_name in H.
  destruct (assoc_s (fl_name f) (p_file_names p)); [reflexivity|contradiction].
Qed.
Print Assumptions C23_known_files_skipped.

(** A file is known by its name exactly if it is in the pool. *)
Theorem C23_file_lookup X p : search_ok X -> reachable X p ->
  forall n i, get_file_by_name p n = Some i <->
    exists f, nth_error (pool_files p) i = Some f /\ fl_name f = n.
Proof.
  intros SO R n i. pose proof (reachable_Inv _ _ SO R) as I. unfold get_file_by_name. split.
  - intros H. apply assoc_s_In in H. rewrite (iv_fnames _ _ I) in H. apply in_flat_map in H.
    destruct H as [e [He H]]. destruct e; cbn in H; destruct H as [H|[]] || contradiction. inversion H; subst.
    exists f. split; [exact (file_event_inv _ _ _ _ He)|reflexivity].
  - intros [f [Hf <-]]. apply nodup_assoc; [exact (iv_fnodup _ _ I)|]. rewrite (iv_fnames _ _ I).
    apply in_flat_map. exists (EvFile [] i f). split; [exact (file_event _ _ _ Hf)|]. left. reflexivity.
Qed.
Print Assumptions C23_file_lookup.

(** Adding a set a second time, in whole or in part, changes nothing. *)
Theorem C23_adding_twice X fuel p fs p' :
  search_ok X -> reachable X p -> plain fs -> build_files X fuel p fs = Built p' ->
  forall fuel' fs', (forall f, In f fs' -> In f fs) -> build_files X fuel' p' fs' = Built p'.
Proof.
  intros SO R P H fuel' fs' S. apply C23_known_files_skipped. intros f Hf. apply S in Hf.
  pose proof (reachable_Inv _ _ SO R) as I.
  pose proof (built_files X SO _ _ _ _ I H) as E.
  assert (reachable X p') as R' by (eapply re_built; eassumption).
  assert (exists i g, nth_error (pool_files p') i = Some g /\ fl_name g = fl_name f) as [i [g [Hg Eg]]].
  { rewrite E. destruct (assoc_s (fl_name f) (p_file_names p)) as [i|] eqn:K.
    - destruct (proj1 (C23_file_lookup X p SO R (fl_name f) i) K) as [g [Hg Eg]]. exists i, g. split; [|exact Eg].
      rewrite nth_app_l; [exact Hg|]. apply nth_error_Some. congruence.
    - assert (In f (dedup p fs)) as Hd by (unfold dedup; apply filter_In; rewrite K; auto).
      apply In_nth_error in Hd. destruct Hd as [j Hj]. exists (length (pool_files p) + j)%nat, f. split; [|reflexivity].
      rewrite nth_error_app2 by lia. rewrite <- Hj. f_equal. lia. }
  intros Q. pose proof (proj2 (C23_file_lookup X p' SO R' (fl_name f) i)) as L. rewrite Q in L.
  assert (None = Some i) by (apply L; eauto). discriminate.
Qed.
Print Assumptions C23_adding_twice.

Example C23_nonvacuous :
  build_files demo_externs 10 pool_ab [file_cd] = Built pool_abcd /\
  build_files demo_externs 10 pool_abcd [file_cd; file_ab] = Built pool_abcd.
Proof. split; [exact built_abcd|vm_compute; reflexivity]. Qed.

(** ** C29: what is in a pool stays as it is *)

(** After a successful add, every file, enum, extension and service keeps its
    index and is unchanged; so is every message but for extensions appended to
    its list; every name means what it meant. *)
Theorem C29_existing_unchanged X fuel p fs p' :
  search_ok X -> reachable X p -> build_files X fuel p fs = Built p' ->
  (forall i x, nth_error (p_files p) i = Some x -> nth_error (p_files p') i = Some x) /\
  (forall i x, nth_error (p_enums p) i = Some x -> nth_error (p_enums p') i = Some x) /\
  (forall i x, nth_error (p_exts p) i = Some x -> nth_error (p_exts p') i = Some x) /\
  (forall i x, nth_error (p_services p) i = Some x -> nth_error (p_services p') i = Some x) /\
  (forall i m, nth_error (p_messages p) i = Some m -> exists xs,
     nth_error (p_messages p') i = Some (MessageI (m_id m) (m_parent m) (m_exts m ++ xs) (m_fields m) (m_numbers m)
                                                  (m_names m) (m_jsons m) (m_oneofs m) (m_map_entry m)) /\
     Forall (fun x => (length (p_exts p) <= x)%nat) xs) /\
  (forall n d, get_by_name p n = Some d -> get_by_name p' n = Some d) /\
  (forall n i, get_file_by_name p n = Some i -> get_file_by_name p' n = Some i).
Proof.
  intros SO R H. pose proof (reachable_Inv _ _ SO R) as I.
  pose proof (built_frame X _ _ _ _ I H) as F.
  assert (Inv X p') as I'.
  { apply build_built in H. destruct H as [[_ ->]|[_ [v [H [Hq ->]]]]]; [exact I|].
    exact (Inv_built X SO _ _ _ _ I (dedup_unknown _ _) H Hq). }
  repeat split.
  - intros i x Hx. exact (prefix_nth _ _ _ _ _ (fr_files _ _ _ _ F) Hx).
  - intros i x Hx. exact (prefix_nth _ _ _ _ _ (fr_enums _ _ _ _ F) Hx).
  - intros i x Hx. exact (prefix_nth _ _ _ _ _ (fr_exts _ _ _ _ F) Hx).
  - intros i x Hx. exact (prefix_nth _ _ _ _ _ (fr_services _ _ _ _ F) Hx).
  - intros i m Hm. destruct (F2_nth_l _ _ _ (fr_msgs _ _ _ _ F) _ _ Hm) as [m' [Hm' [M1 [M2 [M3 [M4 [M5 [M6 [M7 [M8 [xs [M9 M10]]]]]]]]]]]].
    exists xs. split; [|exact M10]. rewrite (prefix_nth _ _ _ _ _ eq_refl Hm'). destruct m'. cbn in *. congruence.
  - intros n d. rewrite !get_by_name_undot. intros Hd. apply assoc_s_In in Hd.
    apply nodup_assoc; [exact (iv_nodup _ _ I')|]. destruct (fr_names _ _ _ _ F) as [news [E _]]. rewrite E.
    apply in_or_app. right. exact Hd.
  - intros n i. unfold get_file_by_name. intros Hd. apply assoc_s_In in Hd. apply nodup_assoc; [exact (iv_fnodup _ _ I')|].
    rewrite <- (fr_fnames _ _ _ _ F) in Hd. apply filter_In in Hd. apply Hd.
Qed.
Print Assumptions C29_existing_unchanged.

Example C29_nonvacuous :
  build_files demo_externs 10 pool_ab [file_cd] = Built pool_abcd /\
  length (p_messages pool_ab) = 2%nat /\
  (exists m, nth_error (p_messages pool_ab) 0 = Some m /\ m_exts m = []) /\
  (exists m, nth_error (p_messages pool_abcd) 0 = Some m /\ m_exts m = [0; 1]%nat).
Proof.
  split; [exact built_abcd|]. split; [reflexivity|].
  split; eexists; (split; [vm_compute; reflexivity|reflexivity]).
Qed.

(** ** C35: imports *)

(** In every pool, the imports of a file name files of the pool, and
    [FileDescriptor::dependencies] lists them in order; positions in
    [public_dependency] and [weak_dependency] are positions of imports. *)
Theorem C35_imports_exist X p : search_ok X -> reachable X p ->
  forall i fi, nth_error (p_files p) i = Some fi ->
    Forall2 (fun d j => exists g, nth_error (pool_files p) j = Some g /\ fl_name g = d)
            (fl_deps (fi_raw fi)) (fi_deps fi) /\
    (forall z, In z (fl_public (fi_raw fi)) \/ In z (fl_weak (fi_raw fi)) ->
       (0 <= z < Z.of_nat (length (fl_deps (fi_raw fi))))%Z).
Proof.
  intros SO R i fi Hi. pose proof (reachable_Inv _ _ SO R) as I.
  assert (nth_error (raws p) i = Some (fi_raw fi)) as Hr by (unfold raws; rewrite nth_error_map, Hi; reflexivity).
  destruct (iv_files _ _ I _ _ _ (file_event _ _ _ Hr)) as [sy [deps [trans [_ [A D]]]]].
  rewrite Hi in A. apply Some_inj in A. rewrite A. cbn [fi_raw fi_deps]. rewrite A in D. cbn [fi_raw] in D. split.
  - eapply F2_impl; [|exact (ds_deps _ _ _ _ _ _ D)]. intros d j _ Hd.
    exact (proj1 (C23_file_lookup X p SO R d j) Hd).
  - pose proof (ds_pidx _ _ _ _ _ _ D) as P. pose proof (ds_widx _ _ _ _ _ _ D) as W. rewrite Forall_forall in P, W.
    intros z [Hz|Hz]; [apply P in Hz|apply W in Hz]; lia.
Qed.
Print Assumptions C35_imports_exist.

(** So a batch is accepted only if each import of each new file is the name of
    a file of the pool or of the batch, wherever in the batch that is. *)
Theorem C35_accepted_only_with_imports X fuel p fs p' :
  search_ok X -> reachable X p -> plain fs -> build_files X fuel p fs = Built p' ->
  forall f d, In f (dedup p fs) -> In d (fl_deps f) ->
    exists g, In g (pool_files p ++ dedup p fs) /\ fl_name g = d.
Proof.
  intros SO R P H f d Hf Hd. pose proof (reachable_Inv _ _ SO R) as I.
  pose proof (built_files X SO _ _ _ _ I H) as E.
  assert (reachable X p') as R' by (eapply re_built; eassumption).
  assert (In f (pool_files p')) as Hin by (rewrite E; apply in_or_app; right; exact Hf).
  unfold pool_files in Hin. apply in_map_iff in Hin. destruct Hin as [fi [Ef Hfi]]. apply In_nth_error in Hfi. destruct Hfi as [i Hi].
  destruct (C35_imports_exist X p' SO R' i fi Hi) as [Q _]. rewrite Ef in Q.
  apply In_nth_error in Hd. destruct Hd as [j Hj]. destruct (F2_nth_l _ _ _ Q _ _ Hj) as [k [_ [g [Hg Eg]]]].
  exists g. split; [|exact Eg]. rewrite <- E. eapply nth_error_In. exact Hg.
Qed.
Print Assumptions C35_accepted_only_with_imports.

(** Example: a batch in either order; and a missing import. *)
Example C35_nonvacuous :
  (exists p, build_files demo_externs 10 empty_pool [file_cd; file_ab] = Built p) /\
  (exists p, build_files demo_externs 10 empty_pool [file_ab; file_cd] = Built p) /\
  (exists p es, build_files demo_externs 10 empty_pool [file_cd] = Rejected p es /\ In (ErrFileNotFound (b "ab.proto")) (map er_what es)).
Proof.
  split; [eexists; vm_compute; reflexivity|]. split; [eexists; vm_compute; reflexivity|].
  eexists. eexists. split; [vm_compute; reflexivity|]. vm_compute. auto.
Qed.

(** ** C36: lookup by full name *)

(** A lookup finds only a declared item of its kind with that full name (a
    leading dot aside), and finds every one; the enumerations hold exactly the
    declared items.  [K] ranges over messages, enums, extensions and services. *)
Theorem C36_lookup_exact X p K : search_ok X -> reachable X p ->
  (forall n i, lookup K p n = Some i -> exists id it,
     nth_error (all_ids K p) i = Some id /\ id_full id = undot n /\ identifies p id it /\ item_kind it = Some K) /\
  (forall k f path n it, nth_error (pool_files p) k = Some f -> declares_name f path n it -> item_kind it = Some K ->
     exists i id, nth_error (all_ids K p) i = Some id /\ id_file id = k /\ id_path id = path /\ id_full id = n /\
       identifies p id it /\ lookup K p (46 :: n) = Some i /\ (hd 0 n <> 46 -> lookup K p n = Some i)) /\
  (forall i id, nth_error (all_ids K p) i = Some id ->
     (exists it, identifies p id it /\ item_kind it = Some K) /\ lookup K p (46 :: id_full id) = Some i).
Proof.
  intros SO R. pose proof (reachable_Inv _ _ SO R) as I.
  assert (forall e i it, In e (pool_events p) -> kind_index K e = Some i -> ev_item e = Some it ->
            lookup K p (46 :: ev_full e) = Some i) as L.
  { intros e i it He Hk Hi. apply lookup_kind. rewrite get_by_name_undot. cbn [undot]. change (46 =? 46) with true. cbv iota.
    rewrite (event_lookup _ _ _ _ I He Hi). eexists. split; [reflexivity|].
    destruct K, e; cbn in *; try discriminate; apply Some_inj in Hk; subst; reflexivity. }
  split; [|split].
  - intros n i H. apply lookup_kind in H. destruct H as [d [H K']]. rewrite get_by_name_undot in H.
    assert (d_kind d <> DPackage) as Hp by (rewrite K'; destruct K; discriminate).
    destruct (lookup_event _ _ _ _ I H Hp) as [e [it [He [Hi [Ef Ed]]]]].
    assert (kind_index K e = Some i) as Hk.
    { subst d. cbn in K'. destruct K, e; cbn in *; try discriminate; inversion K'; reflexivity. }
    destruct (event_identifies _ _ _ _ _ _ I He Hk Hi) as [id [A [B [_ [_ C]]]]]. exists id, it.
    split; [exact A|]. split; [congruence|]. split; [exact B|].
    destruct (kind_item _ _ _ Hk) as [it' [E1 E2]]. congruence.
  - intros k f path n it Hf [scope [D ->]] Hk.
    destruct (declared_event _ _ _ _ _ _ Hf D) as [e [He [A1 [A2 [A3 A4]]]]].
    destruct (item_index _ _ _ A4 Hk) as [i Hi].
    destruct (event_identifies _ _ _ _ _ _ I He Hi A4) as [id [A [B [B1 [B2 B3]]]]]. exists i, id.
    pose proof (L _ _ _ He Hi A4) as Hl. rewrite A3 in Hl.
    split; [exact A|]. split; [congruence|]. split; [congruence|]. split; [congruence|]. split; [exact B|].
    split; [exact Hl|]. intros Hd. rewrite <- Hl. clear - Hd.
    assert (get_by_name p (dotted scope (item_name it)) = get_by_name p (46 :: dotted scope (item_name it))) as E.
    { rewrite !get_by_name_undot. f_equal. destruct (dotted scope (item_name it)) as [|c r]; [reflexivity|]. cbn in Hd. unfold undot at 1.
      destruct (N.eqb_spec c 46); [contradiction|reflexivity]. }
    destruct K; unfold lookup, get_message_by_name, get_enum_by_name, get_extension_by_name, get_service_by_name; rewrite E; reflexivity.
  - intros i id H. destruct (index_event _ _ _ _ _ I H) as [e [He Hk]]. destruct (kind_item _ _ _ Hk) as [it [Hi Ki]].
    destruct (event_identifies _ _ _ _ _ _ I He Hk Hi) as [id' [A [B [_ [_ C]]]]].
    rewrite H in A. apply Some_inj in A. subst id'. split; [exists it; auto|]. rewrite C. eapply L; eassumption.
Qed.
Print Assumptions C36_lookup_exact.

Example C36_nonvacuous :
  reachable demo_externs pool_abcd /\
  lookup DkMessage pool_abcd (b "a.b.M.Inner") = Some 1%nat /\ lookup DkMessage pool_abcd (b ".c.N") = Some 2%nat /\
  lookup DkEnum pool_abcd (b "a.b.M.Kind") = Some 0%nat /\ lookup DkEnum pool_abcd (b "a.b.M") = None /\
  lookup DkExtension pool_abcd (b "c.ext2") = Some 1%nat /\ lookup DkService pool_abcd (b "a.b.S") = Some 0%nat /\
  map id_full (all_ids DkMessage pool_abcd) = [b "a.b.M"; b "a.b.M.Inner"; b "c.N"].
Proof. split; [exact reach_abcd|]. repeat split; vm_compute; reflexivity. Qed.

(** ** C51: nesting *)

(** full name of the item around an item: that of message [parent], or else
    the package of file [k] *)
Definition around (p : pool) (k : nat) (parent : option nat) (scope : str) : Prop :=
  match parent with
  | Some j => exists pm, nth_error (p_messages p) j = Some pm /\ id_full (m_id pm) = scope /\ id_file (m_id pm) = k
  | None => exists f, nth_error (pool_files p) k = Some f /\ fl_package f = scope
  end.
Definition in_scope (id : ident) (scope : str) : Prop := id_full id = dotted scope (id_name id).

Lemma around_within p f k parent scope : forall X, Inv X p -> nth_error (pool_files p) k = Some f ->
  within f k (pool_events p) parent scope -> around p k parent scope.
Proof.
  intros X I Hf H. destruct parent as [j|]; cbn in *.
  - destruct H as [path [par [m H]]]. destruct (iv_msgs _ _ I _ _ _ _ _ _ H) as [mi [A [B _]]].
    exists mi. rewrite B. auto.
  - eauto.
Qed.

(** In every pool, the full name of a definition is the full name of what is
    around it, a dot, and its own name: messages, enums and extensions are in
    their parent message or their file's package, fields and oneofs in their
    message, methods in their service, enum values in the scope of their enum. *)
Theorem C51_full_names X p : search_ok X -> reachable X p ->
  (forall i m, nth_error (p_messages p) i = Some m -> exists scope,
     around p (id_file (m_id m)) (m_parent m) scope /\ in_scope (m_id m) scope /\
     (forall x, In x (m_fields m) -> in_scope (f_id x) (id_full (m_id m))) /\
     (forall x, In x (m_oneofs m) -> in_scope (o_id x) (id_full (m_id m)))) /\
  (forall i e, nth_error (p_enums p) i = Some e -> exists scope,
     around p (id_file (e_id e)) (e_parent e) scope /\ in_scope (e_id e) scope /\
     (forall x, In x (e_values e) -> in_scope (ev_id x) scope)) /\
  (forall i x, nth_error (p_exts p) i = Some x -> exists scope,
     around p (id_file (x_id x)) (x_parent x) scope /\ in_scope (x_id x) scope) /\
  (forall i s, nth_error (p_services p) i = Some s -> exists scope,
     around p (id_file (s_id s)) None scope /\ in_scope (s_id s) scope /\
     (forall x, In x (s_methods s) -> in_scope (me_id x) (id_full (s_id s)))).
Proof.
  intros SO R. pose proof (reachable_Inv _ _ SO R) as I.
  destruct (visit_cc off0 (raws p)) as [_ _].
  assert (forall k path scope name, in_scope (mk_id k path (dotted scope name) name) scope) as IS.
  { intros. unfold in_scope. rewrite id_name_mk. reflexivity. }
  assert (forall e, In e (pool_events p) -> exists f, nth_error (pool_files p) (ev_file_of e) = Some f /\ ev_ok f (ev_file_of e) (pool_events p) e) as OK
    by (intros; apply event_ok; assumption).
  split; [|split; [|split]].
  - intros i m Hm. assert (nth_error (all_ids DkMessage p) i = Some (m_id m)) as Hid by (cbn; rewrite nth_error_map, Hm; reflexivity).
    destruct (index_event _ _ _ _ _ I Hid) as [e [He Hk]]. destruct e; try discriminate. cbn in Hk. apply Some_inj in Hk. subst index.
    destruct (iv_msgs _ _ I _ _ _ _ _ _ He) as [mi [A [B [C [_ [E [[n0 [_ F]] _]]]]]]]. rewrite Hm in A. apply Some_inj in A. subst mi.
    destruct (OK _ He) as [f [Hf [_ Q]]]. cbn in Q. destruct Q as [scope [D [Ef W]]]. subst full.
    exists scope. rewrite B. cbn [id_file mk_id id_full]. rewrite C. split; [eapply around_within; eassumption|]. split; [apply IS|].
    assert (forall e', In e' (pool_events p) -> owner e' = Some (0, i)%nat \/ owner e' = Some (1, i)%nat ->
      exists it, ev_item e' = Some it /\ ev_full e' = dotted (dotted scope (dp_name m0)) (item_name it)) as OW.
    { intros e' He' O. destruct (OK _ He') as [f' [Hf' [_ Q]]]. destruct (ev_item e') as [it|] eqn:Ei; [|exfalso; clear - Ei O; destruct e'; cbn in *; try discriminate; destruct O; discriminate].
      exists it. split; [reflexivity|]. destruct Q as [scope' [D' [Ef' W']]]. rewrite Ef'. f_equal.
      assert (within f' (ev_file_of e') (pool_events p) (Some i) scope') as W2.
      { destruct e'; cbn in O; destruct O as [O|O]; try discriminate; inversion O; subst; exact W'. }
      destruct W2 as [path' [par' [m' Hi']]]. 
      destruct (iv_msgs _ _ I _ _ _ _ _ _ Hi') as [mi' [A' [B' _]]]. rewrite Hm in A'. apply Some_inj in A'. subst mi'.
      rewrite B in B'. inversion B'. reflexivity. }
    split.
    + intros x Hx. apply In_nth_error in Hx. destruct Hx as [j Hj].
      destruct (F2_nth_r _ _ _ (fo_fields _ _ _ _ _ _ F) _ _ Hj) as [e' [He' Sp]].
      apply nth_error_In in He'. apply kids_in in He'. destruct He' as [He' O].
      destruct (OW _ He' (or_introl O)) as [it [Ei Ef']]. destruct e'; cbn in Sp; try contradiction.
      destruct Sp as (g & k & d & _ & _ & _ & _ & _ & ->). cbn in Ei. apply Some_inj in Ei. subst it. cbn in Ef'. subst full.
      cbn [f_id field_of]. apply IS.
    + intros x Hx. apply (in_map o_id) in Hx. rewrite E in Hx. apply in_map_iff in Hx. destruct Hx as [e' [Eo He']].
      apply kids_in in He'. destruct He' as [He' O].
      destruct (OW _ He' (or_intror O)) as [it [Ei Ef']]. rewrite <- Eo.
      destruct e'; cbn in O; try discriminate. cbn in Ei. apply Some_inj in Ei. subst it. cbn in Ef'. subst full. cbn. apply IS.
  - intros i m Hm. assert (nth_error (all_ids DkEnum p) i = Some (e_id m)) as Hid by (cbn; rewrite nth_error_map, Hm; reflexivity).
    destruct (index_event _ _ _ _ _ I Hid) as [e [He Hk]]. destruct e; try discriminate. cbn in Hk. apply Some_inj in Hk. subst index.
    destruct (iv_enums _ _ I _ _ _ _ _ _ He) as [mi [A [B [C [E _]]]]]. rewrite Hm in A. apply Some_inj in A. subst mi.
    destruct (OK _ He) as [f [Hf [_ Q]]]. cbn in Q. destruct Q as [scope [D [Ef W]]]. subst full.
    exists scope. rewrite B. cbn [id_file mk_id id_full]. rewrite C. split; [eapply around_within; eassumption|]. split; [apply IS|].
    intros x Hx. rewrite E in Hx. apply in_map_iff in Hx. destruct Hx as [e' [Eo He']]. rewrite <- Eo.
    apply kids_in in He'. destruct He' as [He' O]. destruct e'; cbn in O; try discriminate. inversion O; subst.
    destruct (OK _ He') as [f' [Hf' [_ Q]]]. cbn in Q. destruct Q as [scope' [D' [Ef' [path' [par' [en' W']]]]]].
    destruct (iv_enums _ _ I _ _ _ _ _ _ W') as [mi' [A' [B' _]]]. rewrite Hm in A'. apply Some_inj in A'. subst mi'.
    rewrite B in B'. subst full. cbn [mk_value ev_id].
    assert (scope' = scope) as ->; [|apply IS].
    assert (dotted scope (ep_name e) = dotted scope' (ep_name en') /\ path' = path) as [E1 ->] by (inversion B'; auto).
    assert (e = en') as <-.
    { pose proof (event_unique X p _ _ _ _ I He W' eq_refl eq_refl E1) as Q. inversion Q. reflexivity. }
    clear - E1. unfold dotted in E1. destruct scope as [|a s], scope' as [|a' s']; auto.
    + apply (f_equal (@length N)) in E1. rewrite !app_length in E1. cbn in E1. lia.
    + apply (f_equal (@length N)) in E1. rewrite !app_length in E1. cbn in E1. lia.
    + rewrite !app_assoc in E1. apply app_inv_tail in E1. apply app_inv_tail in E1. congruence.
  - intros i m Hm. assert (nth_error (all_ids DkExtension p) i = Some (x_id m)) as Hid by (cbn; rewrite nth_error_map, Hm; reflexivity).
    destruct (index_event _ _ _ _ _ I Hid) as [e [He Hk]]. destruct e; try discriminate. cbn in Hk. apply Some_inj in Hk. subst index.
    destruct (iv_exts _ _ I _ _ _ _ _ _ He) as [mi [n0 [A [_ B]]]]. rewrite Hm in A. apply Some_inj in A. subst mi.
    cbn in B. destruct B as (g & ex & k & d & _ & _ & _ & _ & _ & ->).
    destruct (OK _ He) as [f [Hf [_ Q]]]. cbn in Q. destruct Q as [scope [D [Ef W]]]. subst full.
    exists scope. cbn [x_id x_parent ext_of id_file mk_id id_full]. split; [eapply around_within; eassumption|]. apply IS.
  - intros i m Hm. assert (nth_error (all_ids DkService p) i = Some (s_id m)) as Hid by (cbn; rewrite nth_error_map, Hm; reflexivity).
    destruct (index_event _ _ _ _ _ I Hid) as [e [He Hk]]. destruct e; try discriminate. cbn in Hk. apply Some_inj in Hk. subst index.
    destruct (iv_svcs _ _ I _ _ _ _ _ He) as [mi [n0 [A [B [_ F]]]]]. rewrite Hm in A. apply Some_inj in A. subst mi.
    destruct (OK _ He) as [f [Hf [_ Q]]]. cbn in Q. destruct Q as [scope [D [Ef _]]]. subst full.
    inversion D; subst. exists (fl_package f). rewrite B. cbn [id_file mk_id id_full].
    split; [exists f; split; [exact Hf|reflexivity]|]. split; [apply IS|].
    intros x Hx. apply In_nth_error in Hx. destruct Hx as [j' Hj].
    destruct (F2_nth_r _ _ _ F _ _ Hj) as [e' [He' Sp]].
    apply nth_error_In in He'. apply kids_in in He'. destruct He' as [He' O].
    destruct e'; cbn in Sp; try contradiction. cbn in O. inversion O; subst.
    destruct Sp as (g & inp & out & _ & _ & _ & ->).
    destruct (OK _ He') as [f' [Hf' [_ Q]]]. cbn in Q. destruct Q as [scope' [D' [Ef' [path' [s' W']]]]]. subst full.
    destruct (iv_svcs _ _ I _ _ _ _ _ W') as [mi' [n1 [A' [B' _]]]]. rewrite Hm in A'. apply Some_inj in A'. subst mi'.
    rewrite B in B'. inversion B'. cbn. apply IS.
Qed.
Print Assumptions C51_full_names.

(** The walk visits exactly what the files declare, with the declared paths and
    scopes, whatever the nesting: the path and scope are restored after each
    definition. *)
Theorem C51_walk_exact fs :
  (forall e it, In e (visit off0 fs) -> ev_item e = Some it -> exists f scope,
     nth_error fs (ev_file_of e) = Some f /\ declares f (ev_path e) scope it /\ ev_full e = dotted scope (item_name it)) /\
  (forall k f path scope it, nth_error fs k = Some f -> declares f path scope it ->
     exists e, In e (visit off0 fs) /\ ev_file_of e = k /\ ev_path e = path /\
               ev_full e = dotted scope (item_name it) /\ ev_item e = Some it).
Proof.
  split.
  - intros e it He Hi. destruct (visit_ok _ _ _ He) as [k [f [Hk [E Q]]]]. rewrite Hi in Q. destruct Q as [scope [A [B _]]].
    exists f, scope. cbn in E. rewrite E. auto.
  - intros k f path scope it Hk D. exact (declared_visited fs off0 k f path scope it Hk D).
Qed.
Print Assumptions C51_walk_exact.

(** Nothing is visited twice: the steps of the walk differ in their file or in
    their path. *)
Theorem C51_walk_once fs :
  NoDup (map (fun e => (ev_file_of e, ev_path e)) (visit off0 fs)) /\
  (forall e e', In e (visit off0 fs) -> In e' (visit off0 fs) -> ev_file_of e = ev_file_of e' -> ev_path e = ev_path e' -> e = e').
Proof.
  split; [exact (visit_once off0 fs)|]. intros e e' H H' Ef Ep. apply (visit_same off0 fs e e' H H'). unfold place. rewrite Ef, Ep. reflexivity.
Qed.
Print Assumptions C51_walk_once.

Example C51_nonvacuous :
  reachable demo_externs pool_abcd /\
  map (fun m => (m_parent m, id_full (m_id m))) (p_messages pool_abcd)
  = [(None, b "a.b.M"); (Some 0%nat, b "a.b.M.Inner"); (None, b "c.N")] /\
  map (fun e => (e_parent e, id_full (e_id e), map (fun v => id_full (ev_id v)) (e_values e))) (p_enums pool_abcd)
  = [(Some 0%nat, b "a.b.M.Kind", [b "a.b.M.K0"; b "a.b.M.K1"]);
     (None, b "a.b.E", [b "a.b.E_TWO"; b "a.b.E_ZERO"; b "a.b.E_TWO_AGAIN"])].
Proof. split; [exact reach_abcd|]. split; vm_compute; reflexivity. Qed.
