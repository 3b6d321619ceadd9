(** What holds of every pool that can be built. *)
From Coq Require Import Permutation Sorted.
From Verif Require Import Base BaseProofs Value Descr Proto Build VisitProofs EventProofs BuildFrame BuildNames BuildQuiet BuildResolve.

Definition off0 : offsets := Off 0 0 0 0 0.
(** the calls that describe everything in a pool *)
Definition pool_events (p : pool) : list event := visit off0 (raws p).

(** every list of names a declaration was resolved with is a part of the current one *)
Definition older (names0 names : list (str * def)) : Prop := exists news, names = news ++ names0.
Lemma older_refl n : older n n.
Proof. exists []. reflexivity. Qed.
Lemma older_trans a b c : older a b -> older b c -> older a c.
Proof. intros [x ->] [y ->]. exists (y ++ x). rewrite app_assoc. reflexivity. Qed.
Lemma older_in a b nd : older a b -> In nd a -> In nd b.
Proof. intros [x ->] H. apply in_or_app. auto. Qed.

Section Inv.
  Context (X : externs).

  Record Inv (p : pool) : Prop := {
    iv_sizes : offsets_of p = adv off0 (pool_events p);
    iv_defs : filter nonpkg (p_names p) = rev (flat_map ev_defs (pool_events p));
    iv_nodup : NoDup (map fst (p_names p));
    iv_pkg1 : forall n d, In (n, d) (p_names p) -> d_kind d = DPackage ->
      exists path i f, In (EvFile path i f) (pool_events p) /\ In n (pkg_prefixes f) /\ d_file d = i;
    iv_pkg2 : forall path i f n, In (EvFile path i f) (pool_events p) -> In n (pkg_prefixes f) ->
      exists d, In (n, d) (p_names p) /\ d_kind d = DPackage;
    iv_fnames : p_file_names p = flat_map ev_file (pool_events p);
    iv_fnodup : NoDup (map fst (p_file_names p));
    iv_files : forall path i f, In (EvFile path i f) (pool_events p) ->
      exists sy deps trans, file_syntax f = Some sy /\ nth_error (p_files p) i = Some (FileI sy f deps trans) /\
        deps_spec (p_file_names p) (raws p) i f deps trans;
    iv_msgs : forall path full f parent i m, In (EvMessage path full f parent i m) (pool_events p) ->
      exists mi, nth_error (p_messages p) i = Some mi /\ m_id mi = mk_id f path full (dp_name m) /\
        m_parent mi = parent /\ m_map_entry mi = dp_map_entry m /\
        map o_id (m_oneofs mi) = map (fun e => o_id (mk_oneof e)) (kids 1 i (pool_events p)) /\
        (exists names0, older names0 (p_names p) /\ fields_ok X names0 p m (kids 0 i (pool_events p)) mi) /\
        (syntax_at (p_files p) f = Some Proto3 ->
         NoDup (map (fun x => to_lower_without_underscores (fp_name x)) (dp_fields m)));
    iv_enums : forall path full f parent i e, In (EvEnum path full f parent i e) (pool_events p) ->
      exists ei, nth_error (p_enums p) i = Some ei /\ e_id ei = mk_id f path full (ep_name e) /\
        e_parent ei = parent /\ e_values ei = map mk_value (kids 3 i (pool_events p)) /\ e_alias ei = allow_alias e /\
        values_ok p (allow_alias e) i (kids 3 i (pool_events p)) ei /\ ep_values e <> [] /\
        (syntax_at (p_files p) f = Some Proto3 -> exists v vs, ep_values e = v :: vs /\ snd v = 0%Z);
    iv_exts : forall path full f parent i fd, In (EvExt path full f parent i fd) (pool_events p) ->
      exists x names0, nth_error (p_exts p) i = Some x /\ older names0 (p_names p) /\
        xspec X names0 p (EvExt path full f parent i fd) x;
    iv_svcs : forall path full f i s, In (EvService path full f i s) (pool_events p) ->
      exists si names0, nth_error (p_services p) i = Some si /\ s_id si = mk_id f path full (sp_name s) /\
        older names0 (p_names p) /\ Forall2 (mspec names0 p) (kids 2 i (pool_events p)) (s_methods si)
  }.

  Lemma Inv_empty : Inv empty_pool.
  Proof. constructor; cbn; try reflexivity; try constructor; intros; contradiction. Qed.

  (** *** packages *)
  Lemma before_dots_in s : forall pre n, In n (before_dots pre s) <->
    exists a b, s = a ++ dot :: b /\ n = pre ++ a.
  Proof.
    induction s as [|c s IH]; intros pre n; cbn [before_dots].
    - split; [intros []|]. intros [[|] [b [E _]]]; discriminate.
    - rewrite in_app_iff, IH. split.
      + intros [H|[a [b [-> ->]]]].
        * destruct (N.eqb_spec c dot); [|destruct H]. destruct H as [<- |[]]. subst c. exists [], s.
          rewrite app_nil_r. auto.
        * exists (c :: a), b. cbn. rewrite <- app_assoc. auto.
      + intros [[|x a] [b [E ->]]].
        * cbn in E. injection E as -> ->. left. rewrite N.eqb_refl, app_nil_r. left. reflexivity.
        * cbn in E. injection E as -> ->. right. exists a, b. rewrite <- app_assoc. auto.
  Qed.
  Lemma starts_with_app s pre : starts_with s pre = true <-> exists r, s = pre ++ r.
  Proof.
    revert s. induction pre as [|a pre IH]; intros s; [destruct s; cbn; split; eauto|].
    destruct s as [|b s]; cbn.
    - split; intros H; [discriminate|]. destruct H as [r E]. discriminate.
    - rewrite andb_true_iff, IH, N.eqb_eq. split.
      + intros [-> [r ->]]. eauto.
      + intros [r E]. injection E as -> ->. eauto.
  Qed.
  Lemma prefix_iff f n : In n (pkg_prefixes f) <->
    fl_package f <> [] /\ starts_with (fl_package f) n
    && match nth_error (fl_package f) (length n) with None => true | Some c => c =? dot end = true.
  Proof.
    unfold pkg_prefixes. rewrite andb_true_iff, starts_with_app.
    destruct (fl_package f) as [|c pkg]; [split; [intros []|intros [H _]; contradiction]|].
    set (s := c :: pkg). rewrite in_app_iff, before_dots_in. cbn [In]. split.
    - intros [[a [b [E ->]]]|[<- |[]]]; (split; [discriminate|]).
      + cbn. rewrite E. split; [eauto|]. rewrite nth_error_app2, Nat.sub_diag by lia. reflexivity.
      + split; [exists []; rewrite app_nil_r; reflexivity|].
        rewrite (proj2 (nth_error_None s (length s))) by lia. reflexivity.
    - intros [_ [[r E] H]]. destruct r as [|d r].
      + right. left. rewrite app_nil_r in E. exact E.
      + left. rewrite E, nth_error_app2, Nat.sub_diag in H by lia. cbn in H. apply N.eqb_eq in H. subst d.
        exists n, r. auto.
  Qed.

  Lemma file_event p i f : nth_error (raws p) i = Some f -> In (EvFile [] i f) (pool_events p).
  Proof. intros H. exact (visit_files_all _ off0 i f H). Qed.
  Lemma file_event_inv p path i f : In (EvFile path i f) (pool_events p) -> nth_error (raws p) i = Some f.
  Proof. intros H. apply visit_files_in in H. destruct H as [k [-> H]]. exact H. Qed.

  Lemma def_in p n d : Inv p -> In (n, d) (p_names p) ->
    d_kind d = DPackage \/ exists e, In e (pool_events p) /\ ev_defs e = [(n, d)].
  Proof.
    intros I H. destruct (is_package (d_kind d)) eqn:K.
    - left. destruct (d_kind d); try discriminate. reflexivity.
    - right. assert (In (n, d) (filter nonpkg (p_names p))) as Q.
      { apply filter_In. split; [exact H|]. unfold nonpkg. cbn. rewrite K. reflexivity. }
      rewrite (iv_defs _ I) in Q. apply in_rev in Q. apply in_flat_map in Q. destruct Q as [e [He Q]].
      exists e. split; [exact He|]. destruct e; cbn in *; destruct Q as [Q|[]] || contradiction; rewrite Q; reflexivity.
  Qed.
  Lemma def_of p e n d : Inv p -> In e (pool_events p) -> ev_defs e = [(n, d)] -> In (n, d) (p_names p).
  Proof.
    intros I He E. assert (In (n, d) (filter nonpkg (p_names p))) as Q.
    { rewrite (iv_defs _ I). apply -> in_rev. apply in_flat_map. exists e. rewrite E. cbn. auto. }
    apply filter_In in Q. apply Q.
  Qed.
  Lemma events_scoped p : scoped off0 (pool_events p).
  Proof. apply visit_scoped. Qed.

  Lemma event_index p e : Inv p -> In e (pool_events p) ->
    match e with
    | EvFile _ i _ => (i < length (p_files p))%nat
    | EvMessage _ _ f _ i _ => (f < length (p_files p) /\ i < length (p_messages p))%nat
    | EvField _ _ f m _ _ | EvOneof _ _ f m _ _ => (f < length (p_files p) /\ m < length (p_messages p))%nat
    | EvService _ _ f i _ => (f < length (p_files p) /\ i < length (p_services p))%nat
    | EvMethod _ _ f i _ _ => (f < length (p_files p) /\ i < length (p_services p))%nat
    | EvEnum _ _ f _ i _ => (f < length (p_files p) /\ i < length (p_enums p))%nat
    | EvEnumValue _ _ f i _ _ => (f < length (p_files p) /\ i < length (p_enums p))%nat
    | EvExt _ _ f _ i _ => (f < length (p_files p) /\ i < length (p_exts p))%nat
    end.
  Proof.
    intros I He. destruct (scoped_in _ _ (events_scoped p) _ He) as [o' [_ [B [C1 [C2 [C3 [C4 C5]]]]]]].
    pose proof (iv_sizes _ I) as E. apply (f_equal of_file) in E as E1. apply (f_equal of_msg) in E as E2.
    apply (f_equal of_enum) in E as E3. apply (f_equal of_service) in E as E4. apply (f_equal of_ext) in E as E5.
    cbn [offsets_of of_file of_msg of_enum of_service of_ext] in *.
    destruct e; cbn in *; lia.
  Qed.

  Lemma Inv_base p : Inv p -> base p.
  Proof.
    intros I. constructor.
    - unfold fnames_ok. rewrite (iv_fnames _ I). apply Forall_forall. intros [n i] Hi.
      apply in_flat_map in Hi. destruct Hi as [e [He Hi]]. destruct e; cbn in Hi; destruct Hi as [Hi|[]] || contradiction.
      inversion Hi; subst. exact (event_index _ _ I He).
    - apply Forall_forall. intros [n d] Hi. unfold old_def. cbn [snd fst].
      destruct (def_in _ _ _ I Hi) as [K|[e [He E]]].
      + rewrite K. destruct (iv_pkg1 _ I _ _ Hi K) as [path [i [f [He [Hn _]]]]].
        unfold keeps_package. apply existsb_exists. apply file_event_inv in He. unfold raws in He.
        apply nth_map_some in He. destruct He as [fi [Hfi <-]]. exists fi. split; [eapply nth_error_In; exact Hfi|].
        apply prefix_iff in Hn. apply Hn.
      + pose proof (event_index _ _ I He) as R. destruct e; cbn in E; try discriminate; inversion E; subst; cbn; apply R.
    - intros n Hn Hk. unfold keeps_package in Hk. apply existsb_exists in Hk. destruct Hk as [fi [Hfi Hk]].
      apply In_nth_error in Hfi. destruct Hfi as [i Hfi].
      assert (nth_error (raws p) i = Some (fi_raw fi)) as Hr by (unfold raws; rewrite nth_error_map, Hfi; reflexivity).
      assert (In n (pkg_prefixes (fi_raw fi))) as Hp.
      { apply prefix_iff. split; [|exact Hk]. intros E. rewrite E in Hk. cbn in Hk. destruct n; [contradiction|discriminate]. }
      destruct (iv_pkg2 _ I _ _ _ _ (file_event _ _ _ Hr) Hp) as [d [Hd _]].
      intros E. apply assoc_s_None in E. apply E. apply in_map_iff. exists (n, d). auto.
  Qed.

  (** *** rejected calls *)
  Lemma F2_impl {A B} (R S : A -> B -> Prop) l l' : (forall a b, In a l -> R a b -> S a b) -> Forall2 R l l' -> Forall2 S l l'.
  Proof. intros H F. induction F; constructor; auto. - apply H; [left; reflexivity|assumption]. - apply IHF. intros a b Ha. apply H. right. exact Ha. Qed.

  Lemma same_later p q : same_but_exts p q -> later (length (p_files p)) p q.
  Proof.
    intros [E1 [E2 [E3 [E4 [E5 [E6 E7]]]]]]. constructor.
    - rewrite E3. apply same_upto_refl.
    - unfold raws. rewrite E3. auto.
    - unfold mids. intros i x H. rewrite <- H. 
      assert (forall l, map m_id l = map m_id (map strip l)) as Q by (intros l; rewrite map_map; reflexivity).
      rewrite (Q (p_messages q)), E7, <- Q. reflexivity.
    - unfold eids. rewrite E4. auto.
    - unfold evals. rewrite E4. auto.
  Qed.
  Lemma fields_ok_strip names p m ks mi mi' : strip mi = strip mi' -> fields_ok X names p m ks mi -> fields_ok X names p m ks mi'.
  Proof.
    intros E [F N Nd J Jd S B O]. unfold strip in E. inversion E as [[E1 E2 E3 E4 E5 E6 E7 E8]].
    constructor; rewrite <- ?E3, <- ?E4, <- ?E5, <- ?E6, <- ?E7; auto.
  Qed.

  Lemma Inv_same p q : same_but_exts p q -> Inv p -> Inv q.
  Proof.
    intros S I. pose proof (same_later _ _ S) as L. pose proof (same_lengths _ _ S) as Ll.
    pose proof S as [E1 [E2 [E3 [E4 [E5 [E6 E7]]]]]].
    assert (raws q = raws p) as Er by (unfold raws; rewrite E3; reflexivity).
    assert (pool_events q = pool_events p) as Ee by (unfold pool_events; rewrite Er; reflexivity).
    pose proof (fun k i => kids_file_lt off0 (pool_events p) k i (events_scoped p)) as KL.
    assert (of_file (adv off0 (pool_events p)) = length (p_files p)) as Ef by (rewrite <- (iv_sizes _ I); reflexivity).
    rewrite Ef in KL.
    destruct I as [i1 i2 i3 i4 i5 i6 i7 i8 i9 i10 i11 i12].
    constructor; rewrite ?Ee, ?E1, ?E2, ?E3, ?E4, ?E5, ?E6, ?Er; auto.
    - rewrite <- i1. unfold offsets_of. rewrite E3, E4, E5, E6, Ll. reflexivity.
    - intros path full f parent i m Hi. destruct (i9 _ _ _ _ _ _ Hi) as [mi [A [B [C [D [E [[names0 [F G]] H]]]]]]].
      assert (nth_error (map strip (p_messages q)) i = Some (strip mi)) as Q by (rewrite E7, nth_error_map, A; reflexivity).
      apply nth_map_some in Q. destruct Q as [mi' [Q1 Q2]]. exists mi'. split; [exact Q1|].
      pose proof Q2 as Q2'. unfold strip in Q2'. inversion Q2' as [[S1 S2 S3 S4 S5 S6 S7 S8]].
      rewrite ?S1, ?S2, ?S7, ?S8. repeat (split; [assumption|]). split; [|exact H].
      exists names0. split; [exact F|]. eapply fields_ok_strip; [symmetry; exact Q2|].
      eapply fields_ok_later; [exact L|apply KL|exact G].
    - intros path full f parent i m Hi. destruct (i10 _ _ _ _ _ _ Hi) as [mi [A [B [C [D [E [F G]]]]]]].
      exists mi. repeat (split; [assumption|]). split; [|exact G]. eapply values_ok_later; [exact L|exact F].
    - intros path full f parent i fd Hi. destruct (i11 _ _ _ _ _ _ Hi) as [x [n0 [A [B C]]]].
      exists x, n0. repeat (split; [assumption|]). eapply xspec_later; [exact L| |exact C].
      rewrite <- Ef. exact (file_lt _ _ _ (events_scoped p) Hi).
    - intros path full f i s Hi. destruct (i12 _ _ _ _ _ Hi) as [x [n0 [A [B [C D]]]]].
      exists x, n0. repeat (split; [assumption|]). eapply F2_impl; [|exact D]. intros a b Ha Hab.
      eapply mspec_later; [exact L| |exact Hab]. pose proof (KL 2%nat i) as K. rewrite Forall_forall in K. apply K. exact Ha.
  Qed.

  (** *** successful calls *)
  Lemma g_files_app a : forall o b, g_files o (a ++ b) = g_files o a ++ g_files (adv o (g_files o a)) b.
  Proof.
    induction a as [|f a IH]; intros o b; cbn [app g_files]; [reflexivity|].
    rewrite IH, <- app_assoc. f_equal. f_equal. rewrite adv_app.
    destruct (g_file_scoped o f) as [_ ->]. reflexivity.
  Qed.
  Lemma visit_app o a b : visit o (a ++ b) = visit o a ++ visit (adv o (visit o a)) b.
  Proof. rewrite !visit_eq. apply g_files_app. Qed.
  Lemma g_files_off fs : forall o, of_file (adv o (g_files o fs)) = (of_file o + length fs)%nat.
  Proof.
    induction fs as [|f fs IH]; intros o; cbn [g_files length]; [cbn; lia|].
    rewrite adv_app. destruct (g_file_scoped o f) as [_ ->]. rewrite IH. cbn. lia.
  Qed.
  Lemma visit_nfiles o fs : of_file (adv o (visit o fs)) = (of_file o + length fs)%nat.
  Proof. rewrite visit_eq. apply g_files_off. Qed.

  Lemma list_eq_nth {A} (l l' : list A) : length l = length l' ->
    (forall i a, nth_error l i = Some a -> nth_error l' i = Some a) -> l = l'.
  Proof.
    revert l'. induction l as [|a l IH]; intros [|b l'] Hl H; try discriminate; [reflexivity|].
    pose proof (H O a eq_refl) as Q. cbn in Q. apply Some_inj in Q. subst b. f_equal.
    apply IH; [cbn in Hl; lia|]. intros i x Hx. exact (H (S i) x Hx).
  Qed.
  Lemma nth_firstn {A} (l : list A) n i : (i < n)%nat -> nth_error (firstn n l) i = nth_error l i.
  Proof. revert l i. induction n as [|n IH]; intros [|a l] [|i] H; cbn; auto; try lia. apply IH. lia. Qed.
  Lemma prefix_nth {A} (l' l : list A) n i a : firstn n l' = l -> nth_error l i = Some a -> nth_error l' i = Some a.
  Proof.
    intros E H. rewrite <- E in H. destruct (Nat.lt_ge_cases i n) as [Hi|Hi].
    - rewrite nth_firstn in H by exact Hi. exact H.
    - exfalso. assert (length (firstn n l') <= i)%nat as Q by (rewrite firstn_length; lia).
      apply nth_error_None in Q. congruence.
  Qed.
  Lemma firstn_map_prefix {A B} (g : A -> B) (l' l : list A) n i b :
    firstn n l' = l -> nth_error (map g l) i = Some b -> nth_error (map g l') i = Some b.
  Proof.
    intros E H. apply nth_map_some in H. destruct H as [a [Ha <-]].
    rewrite nth_error_map, (prefix_nth _ _ _ _ _ E Ha). reflexivity.
  Qed.

  Context (SO : search_ok X).

  (** what a successful call leaves, from the two phases *)
  Lemma built_parts fuel p fs v :
    Inv p -> unknown_files p fs -> build_deduped X fuel p fs = Ok v -> v_errs v = [] ->
    let o := offsets_of p in let evs := visit o fs in
    frame fs o p (v_pool v) /\ exists p1, NI o p evs p1 /\ RI X o p1 evs evs (v_pool v).
  Proof.
    intros I Hu H Hq o evs. pose proof (Inv_base _ I) as B.
    split; [exact (build_frame _ _ _ _ _ (ba_fnames _ B) Hu H)|].
    unfold build_deduped in H. fold o in H. fold evs in H.
    apply rbind_ok in H. destruct H as [[p1 e1] [H1 H]].
    assert (e1 = []) as ->.
    { cbn [v_errs] in H. destruct e1; [reflexivity|]. inversion H; subst. discriminate. }
    cbn [v_errs] in H. apply rbind_ok in H. destruct H as [[p2 e2] [H2 H]].
    assert (e2 = []) as ->.
    { cbn [v_errs] in H. destruct e2; [reflexivity|]. inversion H; subst. discriminate. }
    cbn [v_errs] in H. assert (v = V p2 []) as ->.
    { apply rbind_ok in H. destruct H as [b [_ H]]. destruct b; [apply Ok_inj in H; congruence|].
      exfalso. exact (noisy_push _ _ _ _ H Hq). }
    exists p1. pose proof (names_phase _ _ _ H1) as HN. fold o in HN. fold evs in HN. split; [exact HN|].
    cbn [v_pool]. destruct (visit_cc o fs) as [Hcl Hcm].
    eapply resolve_phase; [exact SO|apply visit_scoped| |exact HN|exact Hcl|exact Hcm|apply sizes_of|exact H2].
    apply visit_located. intros k f Hk. destruct (ni_files _ _ _ _ _ (ni_nf _ _ _ _ HN) [] (of_file o + k)%nat f) as [sy [_ Hf]].
    { apply visit_files_all. exact Hk. }
    unfold raws. rewrite nth_error_map, Hf. reflexivity.
  Qed.

  Lemma built_raws fs p p1 p2 :
    let o := offsets_of p in let evs := visit o fs in
    frame fs o p p2 -> NI o p evs p1 -> RI X o p1 evs evs p2 -> raws p2 = raws p ++ fs.
  Proof.
    intros o evs F HN HR. symmetry. apply list_eq_nth.
    - rewrite (ri_raws _ _ _ _ _ _ HR). unfold raws. rewrite app_length, !map_length.
      rewrite (ni_nfiles _ _ _ _ _ (ni_nf _ _ _ _ HN)). unfold evs. rewrite visit_nfiles. reflexivity.
    - intros i a H. destruct (Nat.lt_ge_cases i (length (raws p))) as [Hi|Hi].
      + rewrite nth_app_l in H by exact Hi. unfold raws in *. eapply firstn_map_prefix; [exact (fr_files _ _ _ _ F)|exact H].
      + rewrite nth_error_app2 in H by exact Hi.
        pose proof (visit_files_all fs o _ _ H) as Hin. 
        destruct (ni_files _ _ _ _ _ (ni_nf _ _ _ _ HN) _ _ _ Hin) as [sy [_ Hf]].
        rewrite (ri_raws _ _ _ _ _ _ HR). unfold raws. rewrite nth_error_map.
        replace (of_file o + (i - length (raws p)))%nat with i in Hf by (unfold o, raws in *; cbn; rewrite map_length in *; lia).
        rewrite Hf. reflexivity.
  Qed.

  Lemma frame_later fs p p2 : frame fs (offsets_of p) p p2 -> later (length (p_files p)) p p2.
  Proof.
    intros F. constructor.
    - intros f Hf. pose proof (fr_files _ _ _ _ F) as E. cbn [of_file offsets_of] in E.
      transitivity (nth_error (firstn (length (p_files p)) (p_files p2)) f); [symmetry; apply nth_firstn; exact Hf|rewrite E; reflexivity].
    - intros i x H. eapply firstn_map_prefix; [exact (fr_files _ _ _ _ F)|exact H].
    - intros i x H. unfold mids in *. apply nth_map_some in H. destruct H as [m [Hm <-]].
      destruct (F2_nth_l _ _ _ (fr_msgs _ _ _ _ F) _ _ Hm) as [m' [Hm' [E _]]].
      rewrite nth_error_map, (prefix_nth _ _ _ _ _ eq_refl Hm'). cbn. rewrite E. reflexivity.
    - intros i x H. eapply firstn_map_prefix; [exact (fr_enums _ _ _ _ F)|exact H].
    - intros i x H. eapply firstn_map_prefix; [exact (fr_enums _ _ _ _ F)|exact H].
  Qed.

  Lemma assoc_app_l {A} k (v : A) l l' : assoc_s k l = Some v -> assoc_s k (l ++ l') = Some v.
  Proof.
    induction l as [|[k' v'] l IH]; cbn; [discriminate|]. destruct (bytes_eqb k k'); [auto|exact IH].
  Qed.
  Lemma pub_mono fn fn' rs rs' a b :
    (forall d i, assoc_s d fn = Some i -> assoc_s d fn' = Some i) ->
    (forall i x, nth_error rs i = Some x -> nth_error rs' i = Some x) ->
    pub_dep fn rs a b -> pub_dep fn' rs' a b.
  Proof. intros H1 H2 [f [j [d [A [B [C D]]]]]]. exists f, j, d. auto. Qed.
  Lemma reach_mono fn fn' rs rs' a b :
    (forall d i, assoc_s d fn = Some i -> assoc_s d fn' = Some i) ->
    (forall i x, nth_error rs i = Some x -> nth_error rs' i = Some x) ->
    pub_reach fn rs a b -> pub_reach fn' rs' a b.
  Proof. intros H1 H2 H. induction H; [constructor|]. eapply pr_step; [eapply pub_mono; eauto|assumption]. Qed.

  Lemma kids_split p fs k i :
    Inv p -> kids k i (pool_events p ++ visit (offsets_of p) fs) =
      if (i <? oget (offsets_of p) k)%nat then kids k i (pool_events p) else kids k i (visit (offsets_of p) fs).
  Proof.
    intros I. rewrite kids_app. destruct (Nat.ltb_spec i (oget (offsets_of p) k)) as [Hi|Hi].
    - rewrite (kids_none k i (visit _ _)); [apply app_nil_r|]. intros e He E.
      pose proof (visit_fresh (offsets_of p) fs) as F. rewrite Forall_forall in F. specialize (F _ He).
      destruct e; cbn in E; try discriminate; inversion E; subst; cbn in *; lia.
    - rewrite (kids_fresh off0 (pool_events p)); [reflexivity|apply events_scoped|].
      rewrite <- (iv_sizes _ I). exact Hi.
  Qed.

  Lemma Inv_built fuel p fs v :
    Inv p -> unknown_files p fs -> build_deduped X fuel p fs = Ok v -> v_errs v = [] -> Inv (v_pool v).
  Proof.
    intros I Hu H Hq. destruct (built_parts _ _ _ _ I Hu H Hq) as [F [p1 [HN HR]]]. cbn zeta in *.
    set (p2 := v_pool v) in *. pose proof (built_raws _ _ _ _ F HN HR) as Er. cbn zeta in Er.
    set (o := offsets_of p) in *. set (new := visit o fs) in *.
    assert (pool_events p2 = pool_events p ++ new) as Ee.
    { unfold pool_events. rewrite Er, visit_app. fold (pool_events p). rewrite <- (iv_sizes _ I). reflexivity. }
    pose proof (frame_later _ _ _ F) as L.
    assert (older (p_names p) (p_names p2)) as Old.
    { destruct (fr_names _ _ _ _ F) as [news [En _]]. exists news. exact En. }
    assert (forall k i, Forall (fun e => (ev_file_of e < length (p_files p))%nat) (kids k i (pool_events p))) as KL.
    { intros k i. pose proof (kids_file_lt off0 (pool_events p) k i (events_scoped p)) as K.
      rewrite <- (iv_sizes _ I) in K. exact K. }
    pose proof (visit_scoped o fs : scoped o new) as Hs.
    assert (forall k i, kids k i (pool_events p2) = if (i <? oget o k)%nat then kids k i (pool_events p) else kids k i new) as KS.
    { intros k i. rewrite Ee. apply kids_split. exact I. }
    assert (p_file_names p2 = p_file_names p ++ flat_map ev_file new) as Efn.
    { rewrite (ri_fnames _ _ _ _ _ _ HR). exact (ni_fnames _ _ _ _ _ (ni_nf _ _ _ _ HN)). }
    assert (forall d i, assoc_s d (p_file_names p) = Some i -> assoc_s d (p_file_names p2) = Some i) as Afn.
    { intros d i Hd. rewrite Efn. apply assoc_app_l. exact Hd. }
    assert (forall f, syntax_at (p_files p2) f = syntax_at (p_files p1) f) as Syn.
    { intros f. unfold syntax_at. rewrite <- !nth_error_map, (ri_syn _ _ _ _ _ _ HR). reflexivity. }
    pose proof (ni_nn _ _ _ _ HN) as NNp. rewrite <- (ri_names _ _ _ _ _ _ HR) in NNp.
    pose proof HN as [_ NFp NMp NEp _ _].
    constructor.
    - rewrite Ee, adv_app, <- (iv_sizes _ I). fold o.
      unfold offsets_of. 
      assert (length (p_files p2) = of_file (adv o new)) as ->.
      { rewrite <- (ni_nfiles _ _ _ _ _ NFp). rewrite <- (map_length fi_raw (p_files p2)), <- (map_length fi_raw (p_files p1)).
        fold (raws p2). fold (raws p1). rewrite (ri_raws _ _ _ _ _ _ HR). reflexivity. }
      assert (length (p_messages p2) = of_msg (adv o new)) as ->.
      { rewrite <- (ni_nmsgs _ _ _ _ NMp). rewrite <- (map_length m_id (p_messages p2)), <- (map_length m_id (p_messages p1)).
        fold (mids p2). fold (mids p1). rewrite (ri_mids _ _ _ _ _ _ HR). reflexivity. }
      assert (length (p_enums p2) = of_enum (adv o new)) as ->.
      { rewrite <- (ni_nenums _ _ _ _ NEp). rewrite <- (map_length e_id (p_enums p2)), <- (map_length e_id (p_enums p1)).
        fold (eids p2). fold (eids p1). rewrite (ri_eids _ _ _ _ _ _ HR). reflexivity. }
      rewrite (ri_nexts _ _ _ _ _ _ HR), (ri_nsvcs _ _ _ _ _ _ HR). destruct (adv o new). reflexivity.
    - rewrite Ee, flat_map_app, rev_app_distr, <- (iv_defs _ I). exact (ni_defs _ _ _ NNp).
    - exact (ni_nodup _ _ _ NNp (iv_nodup _ I)).
    - intros n d Hi Hk. destruct (ni_pkg1 _ _ _ NNp _ _ Hi Hk) as [Ho|[path [i [f [A B]]]]].
      + destruct (iv_pkg1 _ I _ _ Ho Hk) as [path [i [f [A B]]]]. exists path, i, f.
        split; [rewrite Ee; apply in_or_app; left; exact A|exact B].
      + exists path, i, f. split; [rewrite Ee; apply in_or_app; right; exact A|exact B].
    - intros path i f n Hi Hn. rewrite Ee in Hi. apply in_app_or in Hi. destruct Hi as [Hi|Hi].
      + destruct (iv_pkg2 _ I _ _ _ _ Hi Hn) as [d [A B]]. exists d. split; [|exact B]. apply (ni_old _ _ _ NNp). exact A.
      + exact (ni_pkg2 _ _ _ NNp _ _ _ _ Hi Hn).
    - rewrite Ee, flat_map_app, <- (iv_fnames _ I). exact Efn.
    - rewrite (ri_fnames _ _ _ _ _ _ HR). exact (ni_fnodup _ _ _ _ _ NFp (iv_fnodup _ I)).
    - intros path i f Hi. rewrite Ee in Hi. apply in_app_or in Hi. destruct Hi as [Hi|Hi].
      + destruct (iv_files _ I _ _ _ Hi) as [sy [deps [trans [A [B C]]]]].
        exists sy, deps, trans. split; [exact A|].
        split; [rewrite (lt_files _ _ _ L); [exact B|exact (event_index _ _ I Hi)]|].
        destruct C as [C1 C2 C3 C4 C5 C6 C7]. constructor; auto.
        * eapply F2_impl; [|exact C1]. intros a b _ Hab. exact (Afn _ _ Hab).
        * intros j b Hj [f' [k [d [Q1 [Q2 [Q3 Q4]]]]]]. apply (C4 j b Hj). exists f', k, d.
          assert (exists n0, assoc_s n0 (p_file_names p) = Some j) as [n0 Hn0].
          { clear - C1 Hj. induction C1; [destruct Hj|]. destruct Hj as [<- | Hj]; [eauto|auto]. }
          assert (j < length (p_files p))%nat as Hjl.
          { pose proof (ba_fnames _ (Inv_base _ I)) as Q. unfold fnames_ok in Q. rewrite Forall_forall in Q.
            exact (Q _ (assoc_s_In _ _ _ Hn0)). }
          assert (nth_error (raws p) j = Some f') as Q1'.
          { rewrite Er in Q1. rewrite nth_app_l in Q1; [exact Q1|]. unfold raws. rewrite map_length. exact Hjl. }
          split; [exact Q1'|]. split; [exact Q2|]. split; [exact Q3|].
          destruct (iv_files _ I _ _ _ (file_event _ _ _ Q1')) as [sy' [deps' [trans' [_ [_ C']]]]].
          destruct (F2_nth_l _ _ _ (ds_deps _ _ _ _ _ _ C') _ _ Q2) as [b' [_ Hb']].
          assert (b' = b) as <-; [|exact Hb']. apply Afn in Hb'. congruence.
        * intros x Hx. destruct (C5 _ Hx) as [Hy|[j [Hj Hy]]]; [auto|]. right. exists j. split; [exact Hj|].
          eapply reach_mono; [exact Afn|exact (lt_raws _ _ _ L)|exact Hy].
      + destruct (ri_files _ _ _ _ _ _ HR _ _ _ Hi) as [sy [deps [trans [A [B C]]]]]. exists sy, deps, trans. auto.
    - intros path full f parent i m Hi. rewrite Ee in Hi. rewrite !KS. cbn [oget].
      change (of_msg o) with (length (p_messages p)). apply in_app_or in Hi. destruct Hi as [Hi|Hi].
      + pose proof (event_index _ _ I Hi) as R. cbn in R.
        destruct (Nat.ltb_spec i (length (p_messages p))); [|lia].
        destruct (iv_msgs _ I _ _ _ _ _ _ Hi) as [mi [A [B [C [D [E [[n0 [G1 G2]] K]]]]]]].
        destruct (F2_nth_l _ _ _ (fr_msgs _ _ _ _ F) _ _ A) as [mi' [A' [M1 [M2 [M3 [M4 [M5 [M6 [M7 [M8 _]]]]]]]]]].
        exists mi'. split; [exact (prefix_nth _ _ _ _ _ eq_refl A')|].
        rewrite M1, M2, M7, M8. repeat (split; [assumption|]). split.
        * exists n0. split; [eapply older_trans; eassumption|].
          apply (fields_ok_later X _ n0 p p2 m _ mi' L (KL 0%nat i)).
          eapply fields_ok_strip; [|exact G2]. unfold strip. congruence.
        * unfold syntax_at. rewrite (lt_files _ _ _ L) by lia. exact K.
      + assert (of_msg o <= i)%nat as Hge by (eapply msg_index_range; [exact Hs|exact Hi]).
        destruct (Nat.ltb_spec i (length (p_messages p))) as [Hlt|_]; [cbn in Hge; lia|].
        destruct (ri_msgs _ _ _ _ _ _ HR _ _ _ _ _ _ Hi) as [mi [A [B [C [D [E G]]]]]].
        exists mi. repeat (split; [assumption|]). split; [exists (p_names p2); split; [apply older_refl|exact G]|].
        rewrite Syn. exact (proj2 (ni_msgs _ _ _ _ NMp _ _ _ _ _ _ Hi)).
    - intros path full f parent i m Hi. rewrite Ee in Hi. rewrite !KS. cbn [oget].
      change (of_enum o) with (length (p_enums p)). apply in_app_or in Hi. destruct Hi as [Hi|Hi].
      + pose proof (event_index _ _ I Hi) as R. cbn in R.
        destruct (Nat.ltb_spec i (length (p_enums p))); [|lia].
        destruct (iv_enums _ I _ _ _ _ _ _ Hi) as [mi [A [B [C [D [E [G [K1 K2]]]]]]]].
        exists mi. split; [exact (prefix_nth _ _ _ _ _ (fr_enums _ _ _ _ F) A)|].
        repeat (split; [assumption|]). split; [eapply values_ok_later; [exact L|exact G]|].
        split; [exact K1|]. unfold syntax_at. rewrite (lt_files _ _ _ L) by lia. exact K2.
      + assert (of_enum o <= i)%nat as Hge by (eapply enum_index_range; [exact Hs|exact Hi]).
        destruct (Nat.ltb_spec i (length (p_enums p))) as [Hlt|_]; [cbn in Hge; lia|].
        destruct (ri_enums _ _ _ _ _ _ HR _ _ _ _ _ _ Hi) as [mi [A [B [C [D [E G]]]]]].
        exists mi. repeat (split; [assumption|]).
        rewrite Syn. exact (proj2 (ni_enums _ _ _ _ NEp _ _ _ _ _ _ Hi)).
    - intros path full f parent i fd Hi. rewrite Ee in Hi. apply in_app_or in Hi. destruct Hi as [Hi|Hi].
      + pose proof (event_index _ _ I Hi) as R. cbn in R.
        destruct (iv_exts _ I _ _ _ _ _ _ Hi) as [x [n0 [A [B C]]]]. exists x, n0.
        split; [exact (prefix_nth _ _ _ _ _ (fr_exts _ _ _ _ F) A)|]. split; [eapply older_trans; eassumption|].
        eapply xspec_later; [exact L|cbn; lia|exact C].
      + destruct (ri_exts _ _ _ _ _ _ HR _ _ _ _ _ _ Hi) as [x [A B]]. exists x, (p_names p2). split; [exact A|].
        split; [apply older_refl|exact B].
    - intros path full f i s Hi. rewrite Ee in Hi. rewrite !KS. cbn [oget].
      change (of_service o) with (length (p_services p)). apply in_app_or in Hi. destruct Hi as [Hi|Hi].
      + pose proof (event_index _ _ I Hi) as R. cbn in R.
        destruct (Nat.ltb_spec i (length (p_services p))); [|lia].
        destruct (iv_svcs _ I _ _ _ _ _ Hi) as [x [n0 [A [B [C D]]]]]. exists x, n0.
        split; [exact (prefix_nth _ _ _ _ _ (fr_services _ _ _ _ F) A)|]. split; [exact B|].
        split; [eapply older_trans; eassumption|].
        eapply F2_impl; [|exact D]. intros a b Ha Hab. eapply mspec_later; [exact L| |exact Hab].
        pose proof (KL 2%nat i) as K. rewrite Forall_forall in K. apply K. exact Ha.
      + assert (of_service o <= i)%nat as Hge.
        { pose proof (visit_fresh o fs) as Fr. rewrite Forall_forall in Fr. apply (Fr _ Hi). }
        destruct (Nat.ltb_spec i (length (p_services p))) as [Hlt|_]; [cbn in Hge; lia|].
        destruct (ri_svcs _ _ _ _ _ _ HR _ _ _ _ _ Hi) as [x [A [B C]]]. exists x, (p_names p2).
        repeat (split; [assumption|]). split; [apply older_refl|exact C].
  Qed.
End Inv.

(** ** Reachable pools *)

(** the packages of the files do not start with a dot *)
Definition plain (fs : list file) : Prop := Forall (fun f => hd 0 (fl_package f) <> dot) fs.
Lemma plain_no_dot fs : plain fs -> ~ Exists dotted_pkg fs.
Proof.
  intros H E. unfold plain in H. rewrite Forall_forall in H. apply Exists_exists in E. destruct E as [f [Hf E]].
  exact (H _ Hf E).
Qed.

(** pools made by any sequence of add calls, failed ones included *)
Inductive reachable (X : externs) : pool -> Prop :=
| re_empty : reachable X empty_pool
| re_built fuel p fs p' : reachable X p -> plain fs -> build_files X fuel p fs = Built p' -> reachable X p'
| re_rejected fuel p fs p' es : reachable X p -> plain fs -> build_files X fuel p fs = Rejected p' es -> reachable X p'.

Definition dedup (p : pool) (files : list file) : list file :=
  filter (fun f => match assoc_s (fl_name f) (p_file_names p) with Some _ => false | None => true end) files.
Lemma dedup_unknown p files : unknown_files p (dedup p files).
Proof.
  unfold unknown_files, dedup. apply Forall_forall. intros f Hf. apply filter_In in Hf. destruct Hf as [_ Hf].
  destruct (assoc_s (fl_name f) (p_file_names p)); [discriminate|reflexivity].
Qed.
Lemma plain_filter P fs : plain fs -> plain (filter P fs).
Proof.
  intros H. unfold plain in *. rewrite Forall_forall in *. intros f Hf. apply filter_In in Hf. apply H. apply Hf.
Qed.

(** the three ways a call comes back *)
Lemma build_built X fuel p files p' : build_files X fuel p files = Built p' ->
  (dedup p files = [] /\ p' = p) \/
  (dedup p files <> [] /\ exists v, build_deduped X fuel p (dedup p files) = Ok v /\ v_errs v = [] /\ p' = v_pool v).
Proof.
  unfold build_files. fold (dedup p files). destruct (dedup p files) as [|f fs].
  - intros H. inversion H; subst. auto.
  - intros H. right. split; [discriminate|].
    destruct (build_deduped X fuel p (f :: fs)) as [v| | |]; try discriminate. exists v. split; [reflexivity|].
    destruct (v_errs v); [|discriminate]. inversion H. auto.
Qed.
Lemma build_rejected X fuel p files p' es : build_files X fuel p files = Rejected p' es ->
  exists v, build_deduped X fuel p (dedup p files) = Ok v /\ v_errs v = es /\ es <> [] /\
    p' = rollback (offsets_of p) (v_pool v).
Proof.
  unfold build_files. fold (dedup p files). destruct (dedup p files) as [|f fs].
  - discriminate.
  - intros H. destruct (build_deduped X fuel p (f :: fs)) as [v| | |]; try discriminate. exists v. split; [reflexivity|].
    destruct (v_errs v) eqn:E; [discriminate|]. inversion H; subst. repeat split. discriminate.
Qed.

Theorem reachable_Inv X p : search_ok X -> reachable X p -> Inv X p.
Proof.
  intros SO H. induction H as [|fuel p fs p' _ IH Hp H|fuel p fs p' es _ IH Hp H].
  - apply Inv_empty.
  - apply build_built in H. destruct H as [[_ ->]|[_ [v [H [Hq ->]]]]]; [exact IH|].
    exact (Inv_built X SO _ _ _ _ IH (dedup_unknown _ _) H Hq).
  - apply build_rejected in H. destruct H as [v [H [Hq [Hne ->]]]].
    eapply Inv_same; [|exact IH]. apply (rollback_same (dedup p fs)).
    + exact (Inv_base _ _ IH).
    + apply plain_no_dot. apply plain_filter. exact Hp.
    + exact (build_frame _ _ _ _ _ (ba_fnames _ (Inv_base _ _ IH)) (dedup_unknown _ _) H).
Qed.
