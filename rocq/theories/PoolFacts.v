(** Facts about the pools that can be built, in terms of what their files declare. *)
From Coq Require Import Permutation Sorted.
From Verif Require Import Base BaseProofs Value Descr Proto Build VisitProofs EventProofs BuildFrame BuildNames BuildQuiet BuildResolve BuildInv DeclSpec DeclProofs.

(** the files in a pool, as they were added *)
Definition pool_files (p : pool) : list file := map fi_raw (p_files p).

(** the kinds of definitions that can be looked up by name in a pool *)
Inductive dk := DkMessage | DkEnum | DkExtension | DkService.
Definition lookup (K : dk) (p : pool) (n : str) : option nat :=
  match K with
  | DkMessage => get_message_by_name p n
  | DkEnum => get_enum_by_name p n
  | DkExtension => get_extension_by_name p n
  | DkService => get_service_by_name p n
  end.
(** all_messages, enums, all_extensions, services *)
Definition all_ids (K : dk) (p : pool) : list ident :=
  match K with
  | DkMessage => map m_id (p_messages p)
  | DkEnum => map e_id (p_enums p)
  | DkExtension => map x_id (p_exts p)
  | DkService => map s_id (p_services p)
  end.
Definition item_kind (it : item) : option dk :=
  match it with
  | IMessage _ => Some DkMessage | IEnum _ => Some DkEnum | IExt _ => Some DkExtension | IService _ => Some DkService
  | _ => None
  end.
Definition undot (n : str) : str := match n with c :: r => if c =? 46 then r else n | [] => [] end.

(** the identity [id] is that of the declared item *)
Definition identifies (p : pool) (id : ident) (it : item) : Prop :=
  exists f, nth_error (pool_files p) (id_file id) = Some f /\
    declares_name f (id_path id) (id_full id) it /\ id_name id = item_name it.

Lemma name_of scope name : skipn (length (dotted scope name) - length name) (dotted scope name) = name.
Proof.
  unfold dotted. destruct scope as [|c s].
  - rewrite Nat.sub_diag. reflexivity.
  - rewrite app_assoc. remember ((c :: s) ++ [46]) as a.
    rewrite app_length. replace (length a + length name - length name)%nat with (length a) by lia.
    rewrite skipn_app, skipn_all, Nat.sub_diag. reflexivity.
Qed.
Lemma id_name_mk f path scope name : id_name (mk_id f path (dotted scope name) name) = name.
Proof. unfold id_name, mk_id. cbn. apply name_of. Qed.

Section Facts.
  Context (X : externs).

  Lemma event_ok p e : In e (pool_events p) ->
    exists f, nth_error (pool_files p) (ev_file_of e) = Some f /\ ev_ok f (ev_file_of e) (pool_events p) e.
  Proof.
    intros H. destruct (visit_ok _ _ _ H) as [k [f [Hk Q]]]. exists f. pose proof Q as [E _]. cbn in E.
    rewrite E. split; [exact Hk|exact Q].
  Qed.
  Lemma event_declared p e it : In e (pool_events p) -> ev_item e = Some it ->
    exists f scope, nth_error (pool_files p) (ev_file_of e) = Some f /\
      declares f (ev_path e) scope it /\ ev_full e = dotted scope (item_name it).
  Proof.
    intros H E. destruct (event_ok _ _ H) as [f [Hf [_ Q]]]. rewrite E in Q.
    destruct Q as [scope [A [B _]]]. eauto 6.
  Qed.
  Lemma declared_event p k f path scope it : nth_error (pool_files p) k = Some f -> declares f path scope it ->
    exists e, In e (pool_events p) /\ is_event e k path (dotted scope (item_name it)) it.
  Proof. intros H D. destruct (declared_visited (raws p) off0 k f path scope it H D) as [e Q]. exists e. exact Q. Qed.

  Definition ev_kind (e : event) : dkind :=
    match e with
    | EvFile _ _ _ => DPackage
    | EvMessage _ _ _ _ i _ => DMessage i
    | EvField _ _ _ m _ _ => DField m
    | EvOneof _ _ _ m _ _ => DOneof m
    | EvService _ _ _ i _ => DService i
    | EvMethod _ _ _ s _ _ => DMethod s
    | EvEnum _ _ _ _ i _ => DEnum i
    | EvEnumValue _ _ _ i _ _ => DEnumValue i
    | EvExt _ _ _ _ i _ => DExtension i
    end.
  Lemma ev_defs_item e it : ev_item e = Some it ->
    ev_defs e = [(ev_full e, Def (ev_file_of e) (ev_path e ++ [1%Z]) (ev_kind e))].
  Proof. destruct e; cbn; intros H; try discriminate; reflexivity. Qed.

  Lemma NoDup_filter_fst {A B} (P : A * B -> bool) l : NoDup (map fst l) -> NoDup (map fst (filter P l)).
  Proof.
    induction l as [|a l IH]; cbn; intros H; [constructor|]. inversion H; subst. destruct (P a); cbn; auto.
    constructor; auto. intros Hi. apply H2. apply in_map_iff in Hi. destruct Hi as [x [E Hx]].
    apply filter_In in Hx. apply in_map_iff. exists x. split; [exact E|apply Hx].
  Qed.
  Lemma flat_unique {A B} (g : A -> list (str * B)) l : NoDup (map fst (flat_map g l)) ->
    forall a b n x y, In a l -> In b l -> g a = [(n, x)] -> g b = [(n, y)] -> a = b.
  Proof.
    induction l as [|c l IH]; cbn; intros N a b n x y Ha Hb Ea Eb; [destruct Ha|].
    rewrite map_app in N.
    assert (NoDup (map fst (flat_map g l))) as N'.
    { clear - N. induction (map fst (g c)); [exact N|]. inversion N; auto. }
    assert (forall d z, In d l -> g d = [(n, z)] -> In n (map fst (flat_map g l))) as K.
    { intros d z Hd Ed. apply in_map_iff. exists (n, z). split; [reflexivity|]. apply in_flat_map. exists d. rewrite Ed. cbn. auto. }
    destruct Ha as [-> |Ha], Hb as [-> |Hb]; auto.
    - exfalso. rewrite Ea in N. cbn in N. inversion N; subst. eauto.
    - exfalso. rewrite Eb in N. cbn in N. inversion N; subst. eauto.
    - eapply IH; eauto.
  Qed.

  Lemma events_nodup p : Inv X p -> NoDup (map fst (flat_map ev_defs (pool_events p))).
  Proof.
    intros I. pose proof (NoDup_filter_fst nonpkg _ (iv_nodup _ _ I)) as N. rewrite (iv_defs _ _ I), map_rev in N.
    apply NoDup_rev in N. rewrite rev_involutive in N. exact N.
  Qed.
  Lemma event_unique p e e' it it' : Inv X p -> In e (pool_events p) -> In e' (pool_events p) ->
    ev_item e = Some it -> ev_item e' = Some it' -> ev_full e = ev_full e' -> e = e'.
  Proof.
    intros I He He' Ei Ei' E. eapply (flat_unique ev_defs _ (events_nodup _ I)); [exact He|exact He'|apply (ev_defs_item _ _ Ei)|].
    rewrite E. apply (ev_defs_item _ _ Ei').
  Qed.
  Lemma nodup_assoc {A} n (d : A) l : NoDup (map fst l) -> In (n, d) l -> assoc_s n l = Some d.
  Proof.
    induction l as [|[k v] l IH]; cbn; intros N H; [destruct H|]. inversion N; subst.
    destruct H as [H|H].
    - inversion H; subst. rewrite bytes_eqb_refl. reflexivity.
    - destruct (bytes_eqb n k) eqn:E; [|auto]. apply bytes_eqb_eq in E. subst. exfalso. apply H2.
      apply in_map_iff. exists (k, d). auto.
  Qed.
  Lemma event_lookup p e it : Inv X p -> In e (pool_events p) -> ev_item e = Some it ->
    assoc_s (ev_full e) (p_names p) = Some (Def (ev_file_of e) (ev_path e ++ [1%Z]) (ev_kind e)).
  Proof.
    intros I He Ei. apply nodup_assoc; [exact (iv_nodup _ _ I)|].
    eapply def_of; [exact I|exact He|apply (ev_defs_item _ _ Ei)].
  Qed.
  Lemma lookup_event p n d : Inv X p -> assoc_s n (p_names p) = Some d -> d_kind d <> DPackage ->
    exists e it, In e (pool_events p) /\ ev_item e = Some it /\ ev_full e = n /\
      d = Def (ev_file_of e) (ev_path e ++ [1%Z]) (ev_kind e).
  Proof.
    intros I H K. apply assoc_s_In in H. destruct (def_in _ _ _ _ I H) as [Q|[e [He E]]]; [contradiction|].
    destruct (ev_item e) as [it|] eqn:Ei.
    - exists e, it. rewrite (ev_defs_item _ _ Ei) in E. inversion E. auto.
    - destruct e; discriminate.
  Qed.

  (** the descriptor of an event *)
  Definition kind_index (K : dk) (e : event) : option nat :=
    match K, e with
    | DkMessage, EvMessage _ _ _ _ i _ => Some i
    | DkEnum, EvEnum _ _ _ _ i _ => Some i
    | DkExtension, EvExt _ _ _ _ i _ => Some i
    | DkService, EvService _ _ _ i _ => Some i
    | _, _ => None
    end.
  Lemma event_id p K e i it : Inv X p -> In e (pool_events p) -> kind_index K e = Some i -> ev_item e = Some it ->
    nth_error (all_ids K p) i = Some (mk_id (ev_file_of e) (ev_path e) (ev_full e) (item_name it)).
  Proof.
    intros I He Hk Hi. destruct K, e; cbn in Hk; try discriminate; apply Some_inj in Hk; subst; cbn in Hi; apply Some_inj in Hi; subst;
      cbn [all_ids ev_file_of ev_path ev_full item_name]; rewrite nth_error_map.
    - destruct (iv_msgs _ _ I _ _ _ _ _ _ He) as [mi [A [B _]]]. rewrite A. cbn. rewrite B. reflexivity.
    - destruct (iv_enums _ _ I _ _ _ _ _ _ He) as [mi [A [B _]]]. rewrite A. cbn. rewrite B. reflexivity.
    - destruct (iv_exts _ _ I _ _ _ _ _ _ He) as [mi [n0 [A [B C]]]]. rewrite A. cbn in C.
      destruct C as (g & ex & k & d & _ & _ & _ & _ & _ & ->). reflexivity.
    - destruct (iv_svcs _ _ I _ _ _ _ _ He) as [mi [n0 [A [B _]]]]. rewrite A. cbn. rewrite B. reflexivity.
  Qed.
  Lemma index_event p K i id : Inv X p -> nth_error (all_ids K p) i = Some id ->
    exists e, In e (pool_events p) /\ kind_index K e = Some i.
  Proof.
    intros I H. destruct (index_covered (pool_events p) off0 i (events_scoped p)) as [A [B [C D]]].
    rewrite <- (iv_sizes _ _ I) in A, B, C, D. cbn [off0 of_msg of_enum of_ext of_service offsets_of] in *.
    assert (i < length (all_ids K p))%nat as Hl by (apply nth_error_Some; congruence).
    destruct K; cbn [all_ids] in Hl; rewrite map_length in Hl.
    - destruct A as (? & ? & ? & ? & ? & A); [lia|]. eexists. split; [exact A|reflexivity].
    - destruct B as (? & ? & ? & ? & ? & B); [lia|]. eexists. split; [exact B|reflexivity].
    - destruct C as (? & ? & ? & ? & ? & C); [lia|]. eexists. split; [exact C|reflexivity].
    - destruct D as (? & ? & ? & ? & D); [lia|]. eexists. split; [exact D|reflexivity].
  Qed.
  Lemma kind_item K e i : kind_index K e = Some i -> exists it, ev_item e = Some it /\ item_kind it = Some K.
  Proof. destruct K, e; cbn; intros H; try discriminate; eexists; split; reflexivity. Qed.
  Lemma item_index K e it : ev_item e = Some it -> item_kind it = Some K -> exists i, kind_index K e = Some i.
  Proof. destruct e; cbn; intros H; try discriminate; apply Some_inj in H; subst; cbn; intros H; try discriminate; apply Some_inj in H; subst; cbn; eauto. Qed.

  Lemma event_identifies p K e i it : Inv X p -> In e (pool_events p) -> kind_index K e = Some i -> ev_item e = Some it ->
    exists id, nth_error (all_ids K p) i = Some id /\ identifies p id it /\
      id_file id = ev_file_of e /\ id_path id = ev_path e /\ id_full id = ev_full e.
  Proof.
    intros I He Hk Hi. destruct (event_declared _ _ _ He Hi) as [f [scope [A [B C]]]].
    eexists. split; [exact (event_id _ _ _ _ _ I He Hk Hi)|]. split; [|auto].
    exists f. split; [exact A|]. split; [exists scope; split; [exact B|exact C]|].
    rewrite C. apply id_name_mk.
  Qed.

  Lemma lookup_kind K p n i : lookup K p n = Some i <->
    exists d, get_by_name p n = Some d /\
      d_kind d = match K with DkMessage => DMessage i | DkEnum => DEnum i | DkExtension => DExtension i | DkService => DService i end.
  Proof.
    destruct K; cbn; unfold get_message_by_name, get_enum_by_name, get_extension_by_name, get_service_by_name;
      destruct (get_by_name p n) as [[f path k]|]; (split; [|intros [d [E1 E2]]; try (apply Some_inj in E1; subst d; cbn in E2; subst; reflexivity); discriminate]);
      try discriminate; destruct k; try discriminate; intros H; apply Some_inj in H; subst; eexists; split; reflexivity.
  Qed.
  Lemma get_by_name_undot p n : get_by_name p n = assoc_s (undot n) (p_names p).
  Proof. unfold get_by_name, undot. destruct n as [|c r]; [reflexivity|]. change dot with 46. destruct (c =? 46); reflexivity. Qed.
End Facts.

(** ** What calls do to the files *)
Section Calls.
  Context (X : externs) (SO : search_ok X).

  Lemma built_files fuel p fs p' : Inv X p -> build_files X fuel p fs = Built p' ->
    pool_files p' = pool_files p ++ dedup p fs.
  Proof.
    intros I H. apply build_built in H. destruct H as [[E ->]|[_ [v [H [Hq ->]]]]].
    - rewrite E, app_nil_r. reflexivity.
    - destruct (built_parts X SO _ _ _ _ I (dedup_unknown _ _) H Hq) as [F [p1 [HN HR]]].
      exact (built_raws X _ _ _ _ F HN HR).
  Qed.
  Lemma built_frame fuel p fs p' : Inv X p -> build_files X fuel p fs = Built p' ->
    frame (dedup p fs) (offsets_of p) p p'.
  Proof.
    intros I H. apply build_built in H. destruct H as [[E ->]|[_ [v [H [Hq ->]]]]].
    - rewrite E. constructor; try apply firstn_all.
      + exists []. split; [reflexivity|constructor].
      + apply filter_all. pose proof (ba_fnames _ (Inv_base _ _ I)) as Q. unfold fnames_ok in Q.
        rewrite Forall_forall in *. intros [n i] Hi. apply Nat.ltb_lt. exact (Q _ Hi).
      + cbn. rewrite firstn_all. induction (p_messages p); constructor; auto.
        repeat split. exists []. rewrite app_nil_r. split; [reflexivity|constructor].
    - exact (build_frame _ _ _ _ _ (ba_fnames _ (Inv_base _ _ I)) (dedup_unknown _ _) H).
  Qed.
  Lemma rejected_same fuel p fs p' es : Inv X p -> plain fs -> build_files X fuel p fs = Rejected p' es ->
    same_but_exts p p'.
  Proof.
    intros I Hp H. apply build_rejected in H. destruct H as [v [H [Hq [Hne ->]]]].
    apply (rollback_same (dedup p fs)).
    + exact (Inv_base _ _ I).
    + apply plain_no_dot. apply plain_filter. exact Hp.
    + exact (build_frame _ _ _ _ _ (ba_fnames _ (Inv_base _ _ I)) (dedup_unknown _ _) H).
  Qed.
End Calls.
