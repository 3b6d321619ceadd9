(** Files without extensions leave the extension lists of messages alone. *)
From Verif Require Import Base BaseProofs Value Descr Proto Build VisitProofs EventProofs BuildFrame BuildNames BuildQuiet BuildResolve BuildInv DeclSpec DeclProofs PoolFacts.

Definition no_ext (e : event) : Prop := match e with EvExt _ _ _ _ _ _ => False | _ => True end.
Definition mexts (p : pool) : list (list nat) := map m_exts (p_messages p).
Definition mx (p p' : pool) : Prop := exists k, mexts p' = mexts p ++ repeat [] k.
Lemma mx_refl p : mx p p.
Proof. exists O. cbn. rewrite app_nil_r. reflexivity. Qed.
Lemma mx_trans p q r : mx p q -> mx q r -> mx p r.
Proof. intros [a A] [b B]. exists (a + b)%nat. rewrite B, A, repeat_app, app_assoc. reflexivity. Qed.
Lemma mx_msgs p p' : p_messages p' = p_messages p -> mx p p'.
Proof. intros E. exists O. unfold mexts. rewrite E. cbn. rewrite app_nil_r. reflexivity. Qed.
Lemma mx_upd p i g : (forall m, m_exts (g m) = m_exts m) -> mx p (set_messages (upd i g (p_messages p)) p).
Proof.
  intros H. exists O. cbn [repeat]. rewrite app_nil_r. unfold mexts. cbn. revert i.
  induction (p_messages p) as [|a l IH]; intros [|i]; cbn; f_equal; auto.
Qed.

Lemma add_name_mx f name path k v v' : add_name f name path k v = Ok v' -> mx (v_pool v) (v_pool v').
Proof. intros H. apply mx_msgs. apply add_name_pool in H. destruct H as [E|[_ [_ E]]]; rewrite E; reflexivity. Qed.

Lemma names_mx e v v' : names_step e v = Ok v' -> mx (v_pool v) (v_pool v').
Proof.
  intros H. destruct e; cbn [names_step] in H; try (eapply add_name_mx; exact H).
  - unfold names_file in H. apply rbind_ok in H. destruct H as [v1 [H1 H]].
    apply assert_ok in H1. destruct H1 as [-> _].
    destruct (file_syntax f) as [sy|].
    2: { apply push_err_pool in H. rewrite H. apply mx_refl. }
    apply rbind_ok in H. destruct H as [v2 [H2 H]].
    assert (p_messages (v_pool v2) = p_messages (v_pool v)) as E.
    { destruct (assoc_s (fl_name f) (p_file_names (v_pool v))).
      - apply push_err_pool in H2. rewrite H2. reflexivity.
      - inversion H2. reflexivity. }
    apply (mx_trans _ (v_pool v2)); [apply mx_msgs; exact E|].
    destruct (fl_package f) as [|c pkg] eqn:Ep; [apply Ok_inj in H; subst; apply mx_msgs; reflexivity|].
    apply rbind_ok in H. destruct H as [v3 [H3 H]].
    apply (mx_trans _ (v_pool v3)); [|eapply add_name_mx; exact H].
    revert H3. apply (fold_res_inv (fun s => mx (v_pool v2) (v_pool s))); [|apply mx_msgs; reflexivity].
    intros pre s s' _ Hs E'. eapply mx_trans; [exact Hs|eapply add_name_mx; exact E'].
  - unfold names_message in H. apply rbind_ok in H. destruct H as [v1 [H1 H]].
    apply rbind_ok in H. destruct H as [v2 [H2 H]]. apply assert_ok in H2. destruct H2 as [-> _].
    apply rbind_ok in H. destruct H as [fi [H3 H]]. apply (mx_trans _ (v_pool v1)); [eapply add_name_mx; exact H1|].
    match type of H with context [on_pool ?g v1] => assert (mx (v_pool v1) (v_pool (on_pool g v1))) as Hf2 end.
    { exists 1%nat. unfold mexts. cbn. rewrite map_app. reflexivity. }
    destruct (fi_syntax fi); [apply Ok_inj in H; subst; exact Hf2|].
    apply check_camel_pool in H. rewrite H. exact Hf2.
  - unfold names_oneof in H. apply rbind_ok in H. destruct H as [v1 [H1 H]].
    apply rbind_ok in H. destruct H as [m [H2 H]]. apply rbind_ok in H. destruct H as [v2 [H3 H]].
    apply assert_ok in H3. destruct H3 as [-> _]. apply Ok_inj in H. subst.
    apply (mx_trans _ (v_pool v1)); [eapply add_name_mx; exact H1|]. apply mx_upd. reflexivity.
  - unfold names_enum in H. apply rbind_ok in H. destruct H as [v1 [H1 H]].
    apply rbind_ok in H. destruct H as [v2 [H2 H]]. apply rbind_ok in H. destruct H as [v3 [H3 H]].
    apply assert_ok in H3. destruct H3 as [-> _]. apply Ok_inj in H. subst.
    apply (mx_trans _ (v_pool v1)); [eapply add_name_mx; exact H1|]. apply mx_msgs. cbn.
    assert (v_pool v2 = v_pool v1) as ->; [|reflexivity].
    destruct (ep_values e).
    + exact (push_err_pool _ _ _ _ H2).
    + apply rbind_ok in H2. destruct H2 as [fi [_ H2]]. destruct (fi_syntax fi).
      * inversion H2; reflexivity.
      * destruct (snd p =? 0)%Z; [inversion H2; reflexivity|exact (push_err_pool _ _ _ _ H2)].
  - unfold names_enum_value in H. apply rbind_ok in H. destruct H as [v1 [H1 H]].
    apply rbind_ok in H. destruct H as [en [H2 H]]. apply rbind_ok in H. destruct H as [v3 [H3 H]].
    apply assert_ok in H3. destruct H3 as [-> _]. apply Ok_inj in H. subst.
    apply (mx_trans _ (v_pool v1)); [eapply add_name_mx; exact H1|]. apply mx_msgs. reflexivity.
Qed.

Lemma resolve_deps_mx fuel index ds : forall k trans v t v',
  resolve_deps fuel index k ds trans v = Ok (t, v') -> mx (v_pool v) (v_pool v').
Proof.
  induction ds as [|d ds IH]; intros k trans v t v' H; cbn [resolve_deps] in H.
  - inversion H; subst. apply mx_refl.
  - destruct (assoc_s d _) as [di|].
    + apply rbind_ok in H. destruct H as [fi [_ H]]. apply rbind_ok in H. destruct H as [t1 [_ H]].
      apply IH in H. eapply mx_trans; [|exact H]. apply mx_msgs. reflexivity.
    + apply rbind_ok in H. destruct H as [v1 [H1 H]]. apply IH in H.
      rewrite <- (push_err_pool _ _ _ _ H1). exact H.
Qed.

Lemma resolve_mx X fuel e v v' : no_ext e -> resolve_step X fuel e v = Ok v' -> mx (v_pool v) (v_pool v').
Proof.
  intros Hx H. destruct e; cbn [resolve_step no_ext] in *; try contradiction; try (apply Ok_inj in H; subst; apply mx_refl).
  - unfold resolve_file in H. apply rbind_ok in H. destruct H as [[t v1] [H1 H]].
    apply rbind_ok in H. destruct H as [fi [_ H]].
    apply rbind_ok in H. destruct H as [v2 [H2 H]].
    apply fold_res_pool in H; [|intros; eapply check_import_pool; eassumption]. rewrite H.
    apply fold_res_pool in H2; [|intros; eapply check_import_pool; eassumption]. rewrite H2.
    eapply mx_trans; [eapply resolve_deps_mx; exact H1|]. apply mx_msgs. reflexivity.
  - unfold resolve_field in H.
    apply rbind_ok in H. destruct H as [m [_ H]].
    apply rbind_ok in H. destruct H as [v1 [H1 H]]. apply assert_ok in H1. destruct H1 as [-> _].
    apply rbind_ok in H. destruct H as [fi [_ H]].
    apply rbind_ok in H. destruct H as [v2 [H2 H]]. apply check_field_number_pool in H2.
    apply rbind_ok in H. destruct H as [[k v3] [H3 H]]. apply resolve_type_pool in H3.
    apply rbind_ok in H. destruct H as [json [_ H]].
    apply rbind_ok in H. destruct H as [[dflt v4] [H4 H]]. apply default_of_pool in H4.
    apply rbind_ok in H. destruct H as [m2 [_ H]].
    apply rbind_ok in H. destruct H as [[on v5] [H5 H]].
    assert (v_pool v4 = v_pool v) as E4 by congruence.
    assert (mx (v_pool v) (v_pool v5)) as Hf5.
    { rewrite <- E4. destruct (fp_oneof f) as [z|]; [|inversion H5; subst; apply mx_refl].
      destruct (_ || _).
      - apply rbind_ok in H5. destruct H5 as [v6 [H5 H6]]. inversion H6; subst.
        apply push_err_pool in H5. rewrite H5. apply mx_refl.
      - inversion H5; subst. apply mx_upd. reflexivity. }
    match type of H with context [on_message ?a ?g v5] =>
      assert (mx (v_pool v) (v_pool (on_message a g v5))) as Hf6 by (eapply mx_trans; [exact Hf5|]; apply mx_upd; reflexivity);
      set (v6 := on_message a g v5) in * end.
    apply rbind_ok in H. destruct H as [v7 [H7 H]].
    apply rbind_ok in H. destruct H as [v8 [H8 H]].
    assert (v_pool v' = v_pool v6) as ->; [|exact Hf6].
    transitivity (v_pool v8); [|transitivity (v_pool v7)].
    + destruct (assoc_s json _); [exact (push_err_pool _ _ _ _ H)|inversion H; reflexivity].
    + destruct (assoc_s (fp_name f) _); [exact (push_err_pool _ _ _ _ H8)|inversion H8; reflexivity].
    + destruct (bt_get _ _); [exact (push_err_pool _ _ _ _ H7)|inversion H7; reflexivity].
  - unfold resolve_service in H. apply rbind_ok in H. destruct H as [v1 [H1 H]].
    apply assert_ok in H1. destruct H1 as [-> _]. apply Ok_inj in H. subst. apply mx_msgs. reflexivity.
  - unfold resolve_method in H. apply rbind_ok in H. destruct H as [sv [_ H]].
    apply rbind_ok in H. destruct H as [v1 [H1 H]]. apply assert_ok in H1. destruct H1 as [-> _].
    apply rbind_ok in H. destruct H as [[a v2] [H2 H]]. apply find_message_pool in H2.
    apply rbind_ok in H. destruct H as [[b v3] [H3 H]]. apply find_message_pool in H3.
    apply Ok_inj in H. subst. apply mx_msgs. cbn. congruence.
  - unfold resolve_enum_value in H. apply rbind_ok in H. destruct H as [v1 [H1 H]].
    apply check_enum_number_pool in H1.
    apply rbind_ok in H. destruct H as [en [_ H]].
    match type of H with (let (_, _) := ?x in _) = _ => destruct x as [pos found] end.
    apply rbind_ok in H. destruct H as [v2 [H2 H]].
    assert (v_pool v2 = v_pool v1) as E2.
    { destruct (found && _); [exact (push_err_pool _ _ _ _ H2)|inversion H2; reflexivity]. }
    match type of H with context [on_pool ?g v2] => set (v6 := on_pool g v2) in * end.
    assert (mx (v_pool v) (v_pool v6)) as Hf6 by (apply mx_msgs; cbn; congruence).
    destruct (assoc_s _ _); [|apply Ok_inj in H; subst; exact Hf6].
    apply push_err_pool in H. rewrite H. exact Hf6.
Qed.

Lemma build_mx X fuel p fs v : Forall no_ext (visit (offsets_of p) fs) ->
  build_deduped X fuel p fs = Ok v -> mx p (v_pool v).
Proof.
  intros Hx H. unfold build_deduped in H. rewrite Forall_forall in Hx.
  apply rbind_ok in H. destruct H as [v1 [H1 H]].
  assert (mx p (v_pool v1)) as F1.
  { revert H1. apply (fold_res_inv (fun s => mx p (v_pool s))); [|apply mx_refl].
    intros e s s' He Hs E. eapply mx_trans; [exact Hs|eapply names_mx; exact E]. }
  destruct (v_errs v1); [|inversion H; subst; exact F1].
  apply rbind_ok in H. destruct H as [v2 [H2 H]].
  assert (mx p (v_pool v2)) as F2.
  { revert H2. apply (fold_res_inv (fun s => mx p (v_pool s))); [|exact F1].
    intros e s s' He Hs E. eapply mx_trans; [exact Hs|eapply resolve_mx; [apply Hx; exact He|exact E]]. }
  destruct (v_errs v2); [|inversion H; subst; exact F2].
  apply rbind_ok in H. destruct H as [b [_ H]].
  destruct b; [inversion H; subst; exact F2|]. apply push_err_pool in H. rewrite H. exact F2.
Qed.

(** files that declare no extensions *)
Definition no_extensions (fs : list file) : Prop :=
  forall f path scope x, In f fs -> ~ declares f path scope (IExt x).
Lemma no_ext_events o fs : no_extensions fs -> Forall no_ext (visit o fs).
Proof.
  intros H. apply Forall_forall. intros e He. destruct (visit_ok _ _ _ He) as [k [f [Hk [_ Q]]]].
  destruct e; cbn; auto. cbn in Q. destruct Q as [scope [D _]]. exact (H _ _ _ _ (nth_error_In _ _ Hk) D).
Qed.

Lemma rejected_exact X fuel p fs p' es : Inv X p -> plain fs -> no_extensions fs ->
  (forall i m x, nth_error (p_messages p) i = Some m -> In x (m_exts m) -> (x < length (p_messages p))%nat) ->
  build_files X fuel p fs = Rejected p' es -> p' = p.
Proof.
  intros I Hp Hx Hb H. pose proof (rejected_same X _ _ _ _ _ I Hp H) as S. pose proof (same_lengths _ _ S) as L.
  destruct S as [E1 [E2 [E3 [E4 [E5 [E6 E7]]]]]].
  apply build_rejected in H. destruct H as [v [H [Hq [Hne ->]]]].
  assert (mx p (v_pool v)) as M.
  { apply (build_mx X fuel p (dedup p fs)); [|exact H]. apply no_ext_events. intros f path scope x Hf.
    apply Hx. unfold dedup in Hf. apply filter_In in Hf. apply Hf. }
  set (q := rollback (offsets_of p) (v_pool v)) in *.
  assert (p_messages q = p_messages p) as E8.
  { symmetry. apply list_eq_nth; [symmetry; exact L|]. intros i m Hm.
    assert (nth_error (map strip (p_messages q)) i = Some (strip m)) as Q by (rewrite E7, nth_error_map, Hm; reflexivity).
    apply nth_map_some in Q. destruct Q as [m' [Hm' Q]]. rewrite Hm'. f_equal.
    assert (m_exts m' = m_exts m) as Ee.
    { unfold q, rollback in Hm'. cbn [p_messages of_msg offsets_of] in Hm'. apply nth_map_some in Hm'.
      destruct Hm' as [m0 [Hm0 <-]]. cbn [m_exts].
      assert (i < length (p_messages p))%nat as Hi by (apply nth_error_Some; congruence).
      rewrite nth_firstn in Hm0 by exact Hi. destruct M as [k M].
      assert (nth_error (mexts (v_pool v)) i = Some (m_exts m)) as Q2.
      { rewrite M, nth_app_l; unfold mexts; [|rewrite map_length; exact Hi]. rewrite nth_error_map, Hm. reflexivity. }
      unfold mexts in Q2. rewrite nth_error_map, Hm0 in Q2. cbn in Q2. apply Some_inj in Q2. rewrite Q2.
      apply filter_all. intros x Hxx. apply Nat.ltb_lt. eapply Hb; eassumption. }
    destruct m, m'. unfold strip in Q. cbn in *. inversion Q; subst. reflexivity. }
  destruct p, q. cbn in *. subst. reflexivity.
Qed.
