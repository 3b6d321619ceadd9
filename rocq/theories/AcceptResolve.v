(** The second phase of a build reports no error exactly if the files are valid. *)
From Coq Require Import String Permutation Sorted.
From Verif Require Import Base BaseProofs Value Descr Proto Build VisitProofs EventProofs BuildFrame BuildNames BuildQuiet BuildResolve BuildInv BuildSafe DeclSpec DeclProofs PoolFacts PoolMembers WalkOnce ResolveSpec ResolveProofs DefaultSpec Prop_Resolve Prop_Defaults OptProofs ValidSpec AcceptSteps AcceptNames AcceptRefs.
From Coq Require Import List.
Local Open Scope list_scope.

Lemma alias_iff e : allow_alias e = true <-> aliased e.
Proof.
  unfold allow_alias, aliased. destruct (ep_options e) as [[a us]|].
  - rewrite orb_true_iff, existsb_exists. split.
    + intros H. exists a, us. split; [reflexivity|]. destruct H as [H|(u & Hu & H)]; [left; exact H|right]. exists u. split; [exact Hu|].
      destruct (ui_name u) as [|[part x] [|]]; try discriminate. apply andb_true_iff in H. destruct H as [H H2]. apply andb_true_iff in H. destruct H as [H H1].
      apply bytes_eqb_eq in H. destruct x; [discriminate|]. split; [congruence|]. unfold option_to_bool in H2. destruct (ui_ident u) as [s|]; [|discriminate].
      destruct (bytes_eqb s (s2b "true"%string)) eqn:E; [apply bytes_eqb_eq in E; congruence|]. destruct (bytes_eqb s (s2b "false"%string)); discriminate H2.
    + intros (a' & us' & E & H). injection E as <- <-. destruct H as [H|(u & Hu & E1 & E2)]; [left; exact H|right]. exists u. split; [exact Hu|].
      rewrite E1. unfold option_to_bool. rewrite E2, !bytes_eqb_refl. reflexivity.
  - split; [discriminate|]. intros (a & us & E & _). discriminate.
Qed.

Lemma mapi_nth_inv {A B} (g : nat -> A -> B) l k b : nth_error (mapi 0 g l) k = Some b -> exists a, nth_error l k = Some a /\ b = g k a.
Proof.
  intros H. assert (forall i l k b, nth_error (mapi i g l) k = Some b -> exists a, nth_error l k = Some a /\ b = g (i + k)%nat a) as Q.
  { clear. intros i l. revert i. induction l as [|x l IH]; intros i [|k] b H; cbn in H; try discriminate.
    - apply Some_inj in H. subst b. exists x. rewrite Nat.add_0_r. auto.
    - destruct (IH _ _ _ H) as (a & A1 & A2). exists a. split; [exact A1|]. rewrite A2. f_equal. lia. }
  exact (Q _ _ _ _ H).
Qed.

Lemma values_flat f i path scope vs : map ev_value (g_values f i path scope vs) = vs.
Proof.
  unfold g_values. rewrite mapi_map. cbn [ev_value]. generalize 0%nat. induction vs as [|y ys IH]; intros n; [reflexivity|]. cbn. rewrite IH. reflexivity.
Qed.

Lemma F2_mapi {A B C} (g : nat -> A -> B) (R : B -> C -> Prop) (S : A -> C -> Prop) l l' :
  (forall i a c, R (g i a) c -> S a c) -> Forall2 R (mapi 0 g l) l' -> Forall2 S l l'.
Proof.
  intros H. generalize 0%nat. revert l'. induction l as [|a l IH]; intros l' n F; cbn in F; inversion F; subst; constructor; [eapply H; eassumption|eapply IH; eassumption].
Qed.

Section Resolve.
  Context (X : externs) (SO : search_ok X) (p : pool) (I : Inv X p) (fs : list file) (Hu : unknown_files p fs).
  Let o := offsets_of p.
  Let evs := visit o fs.
  Let all := pool_events p ++ evs.
  Context (p1 : pool) (H1 : fold_res names_step evs (V p []) = Ok (V p1 [])).
  Let names := fun n => assoc_s n (p_names p1).
  Let files := raws p ++ fs.

  Lemma p1_NI : NI o p evs p1.
  Proof. exact (names_phase _ _ _ H1). Qed.
  Lemma p1_later : later (length (p_files p)) p p1.
  Proof.
    assert (frame fs o p p1) as F.
    { pose proof (visit_fresh o fs) as HF. rewrite Forall_forall in HF.
      pose proof (unknown_file_ev p o fs Hu) as HU. rewrite Forall_forall in HU.
      assert (sizes p o) as Ho by apply sizes_of.
      change p1 with (v_pool (V p1 [])). revert H1. apply (fold_res_inv (fun s => frame fs o p (v_pool s))).
      - intros e s s' He Hs E. eapply names_frame; [exact Ho|apply HF; exact He|apply HU; exact He|exact Hs|exact E].
      - apply frame_init; [exact Ho|]. exact (ba_fnames _ (Inv_base _ _ I)). }
    exact (frame_later _ _ _ F).
  Qed.
  Lemma p1_raws : raws p1 = files.
  Proof. exact (proj1 (proj2 (names_ready _ _ _ _ I Hu H1))). Qed.
  Lemma p1_fnames : p_file_names p1 = mapi 0 (fun i f => (fl_name f, i)) files.
  Proof.
    destruct (names_ready _ _ _ _ I Hu H1) as (_ & _ & Fn & _). rewrite Fn, (iv_fnames _ _ I), <- flat_map_app.
    rewrite (all_visit X p I fs). rewrite file_events_flat. reflexivity.
  Qed.
  Lemma p1_located : Forall (located (nth_error (raws p1))) evs.
  Proof. apply (names_ready _ _ _ _ I Hu H1). Qed.
  Lemma p1_file n : assoc_s n (p_file_names p1) <> None <-> exists g, In g files /\ fl_name g = n.
  Proof.
    rewrite p1_fnames. split.
    - destruct (assoc_s n _) as [i|] eqn:E; [|intros Q; contradiction]. intros _. apply assoc_s_In in E. apply In_nth_error in E. destruct E as [k E].
      apply mapi_nth_inv in E. destruct E as (g & G1 & G2). inversion G2; subst. exists g. split; [eapply nth_error_In; exact G1|reflexivity].
    - intros (g & G1 & G2) E. apply assoc_s_None in E. apply E. rewrite (map_mapi_fst fl_name). rewrite <- G2. apply in_map. exact G1.
  Qed.
  Lemma p1_file_index n i : assoc_s n (p_file_names p1) = Some i <-> exists g, nth_error files i = Some g /\ fl_name g = n.
  Proof.
    assert (NoDup (map fst (p_file_names p1))) as Nd by exact (ni_fnodup _ _ _ _ _ (ni_nf _ _ _ _ p1_NI) (iv_fnodup _ _ I)).
    rewrite p1_fnames in *. split.
    - intros E. apply assoc_s_In in E. apply In_nth_error in E. destruct E as [k E].
      apply mapi_nth_inv in E. destruct E as (g & G1 & G2). inversion G2; subst. eauto.
    - intros (g & G1 & <-). apply nodup_assoc; [exact Nd|]. apply (nth_error_In _ i). rewrite mapi_nth, G1. reflexivity.
  Qed.

  Lemma files_new k f : nth_error fs k = Some f -> nth_error files (of_file (offsets_of p) + k) = Some f.
  Proof.
    intros H. unfold files. cbn [of_file offsets_of]. rewrite <- (raws_len p), nth_error_app2 by lia.
    replace (length (raws p) + k - length (raws p))%nat with k by lia. exact H.
  Qed.

  Context (fuel : nat) (vis : nat -> nat -> Prop).
  Definition seen_right : Prop := forall done rest pa path i f fi x, evs = done ++ rest -> RI X o p1 evs done pa ->
    fold_res (resolve_step X fuel) done (V p1 []) = Ok (V pa []) ->
    In (EvFile path i f) done -> nth_error (p_files pa) i = Some fi -> (In x (fi_trans fi) <-> vis i x).
  Context (HV : seen_right).

  (** *** A file is visited before its contents *)
  Lemma own_file done e rest it : evs = done ++ e :: rest -> ev_item e = Some it ->
    exists k f, ev_file_of e = (length (raws p) + k)%nat /\ nth_error fs k = Some f /\ nth_error files (ev_file_of e) = Some f /\
      In (EvFile [] (ev_file_of e) f) done /\ declares_name f (ev_path e) (ev_full e) it.
  Proof.
    intros Hl Ei. assert (In e evs) as He by (rewrite Hl; apply in_or_app; right; left; reflexivity).
    destruct (event_new p fs e it He Ei) as (k & f & E1 & E2 & E3). cbn [of_file offsets_of] in E1. rewrite <- (raws_len p) in E1.
    exists k, f. split; [exact E1|]. split; [exact E2|].
    assert (nth_error files (ev_file_of e) = Some f) as Hf.
    { unfold files. rewrite E1, nth_error_app2 by lia. replace (length (raws p) + k - length (raws p))%nat with k by lia. exact E2. }
    split; [exact Hf|]. split; [|exact E3].
    pose proof (visit_scoped o fs : scoped o evs) as Sc. rewrite Hl in Sc. apply scoped_app in Sc. destruct Sc as [S1 [S2 _]].
    assert (S (ev_file_of e) = of_file (adv o done)) as Lt by (destruct e; try discriminate; cbn in S2 |- *; tauto).
    destruct (file_covered done o (ev_file_of e) S1) as (path & f' & Hin).
    { unfold o at 1. cbn [of_file offsets_of]. rewrite <- (raws_len p). lia. }
    assert (In (EvFile path (ev_file_of e) f') all) as Ha by (apply in_or_app; right; rewrite Hl; apply in_or_app; left; exact Hin).
    apply (file_all X p I fs) in Ha. destruct Ha as [-> Ha]. fold files in Ha. rewrite Hf in Ha. apply Some_inj in Ha. subst f'. exact Hin.
  Qed.

  Section Step.
    Context (done : list event) (e : event) (rest : list event) (pa : pool) (Hl : evs = done ++ e :: rest)
            (R : RI X o p1 evs done pa) (Hd : fold_res (resolve_step X fuel) done (V p1 []) = Ok (V pa [])).
    Context (FV : forall j f, nth_error fs j = Some f -> file_valid X files names vis (length (raws p) + j) f).

    Lemma step_in : In e evs.
    Proof. rewrite Hl. apply in_or_app. right. left. reflexivity. Qed.
    Lemma step_all x : In x evs -> In x all.
    Proof. intros H. apply in_or_app. right. exact H. Qed.
    Lemma step_done x : In x done -> In x evs.
    Proof. intros H. rewrite Hl. apply in_or_app. left. exact H. Qed.

    Lemma step_file it : ev_item e = Some it -> exists f g, file_valid X files names vis (ev_file_of e) f /\
      nth_error files (ev_file_of e) = Some f /\ nth_error (p_files pa) (ev_file_of e) = Some g /\ fi_raw g = f /\
      (forall x, In x (fi_trans g) <-> vis (ev_file_of e) x) /\ declares_name f (ev_path e) (ev_full e) it.
    Proof.
      intros Ei. destruct (own_file _ _ _ _ Hl Ei) as (k & f & E1 & E2 & E3 & E4 & E5).
      destruct (ri_files _ _ _ _ _ _ R _ _ _ E4) as (sy & deps & trans & _ & G & _).
      exists f, (FileI sy f deps trans). split; [rewrite E1; apply FV; exact E2|]. split; [exact E3|]. split; [exact G|]. split; [reflexivity|].
      split; [|exact E5]. intros x. exact (HV _ _ _ _ _ _ _ x Hl R Hd E4 G).
    Qed.
    Lemma step_apart x it it' : In x done -> ev_item x = Some it -> ev_item e = Some it' -> ev_full x <> ev_full e.
    Proof.
      intros Hx Ex Ee E. pose proof (event_thing X p I fs _ _ (step_all _ (step_done _ Hx)) Ex) as T.
      pose proof (event_thing X p I fs _ _ (step_all _ step_in) Ee) as T'. rewrite E in T.
      destruct (nv_apart _ _ (names_are_valid X p I fs p1 p1_NI) _ _ _ _ _ _ _ T T') as [A B].
      apply (split_apart o fs done e rest x Hl Hx). unfold place. congruence.
    Qed.
    Lemma kids_here k i : owned k i e = true -> kids k i evs = kids k i done ++ e :: kids k i rest.
    Proof. intros H. rewrite Hl, kids_app. unfold kids at 2. cbn [filter]. rewrite H. reflexivity. Qed.

    Lemma own_message path full f msg i fd : e = EvField path full f msg i fd ->
      exists mpath mfull par dm, In (EvMessage mpath mfull f par msg dm) evs /\ full = dotted mfull (fp_name fd) /\
        kids 0 msg evs = g_fields f msg mpath mfull (dp_fields dm) /\ In fd (dp_fields dm).
    Proof.
      intros Ee. destruct (visit_cc o fs) as [Hcl Hcm]. fold evs in Hcl, Hcm.
      destruct (Hcl e 0%nat msg step_in) as (h & Hh & Hd'); [rewrite Ee; reflexivity|].
      destruct Hd' as [[l Hd']|[? _]]; [|discriminate].
      destruct h as [| mpath mfull mf par mi dm | | | | | | |]; cbn in Hd'; try contradiction; [|destruct Hd' as [Q|[]]; discriminate].
      destruct Hd' as [Q|[Q|[]]]; [|discriminate]. inversion Q; subst mi l. clear Q.
      pose proof (proj1 (Hcm _ Hh) 0%nat msg _ (or_introl eq_refl)) as K.
      assert (In e (kids 0 msg evs)) as He. { apply filter_In. split; [exact step_in|]. rewrite Ee. unfold owned. cbn. rewrite Nat.eqb_refl. reflexivity. }
      rewrite K in He. apply In_nth_error in He. destruct He as [j He]. unfold g_fields in He. apply mapi_nth_inv in He. destruct He as (fd' & F1 & F2).
      rewrite Ee in F2. inversion F2; subst. exists mpath, mfull, par, dm. split; [exact Hh|]. split; [symmetry; apply dotted_join|].
      split; [exact K|]. eapply nth_error_In. exact F1.
    Qed.
    Definition ev_field (x : event) : list fproto := match x with EvField _ _ _ _ _ fd => [fd] | _ => [] end.
    Lemma fields_flat f msg path full fds : flat_map ev_field (g_fields f msg path full fds) = fds.
    Proof.
      unfold g_fields. generalize 0%nat. induction fds as [|fd fds IH]; intros n; [reflexivity|]. cbn [mapi flat_map ev_field app]. rewrite IH. reflexivity.
    Qed.

    Lemma field_step path full f msg i fd v : e = EvField path full f msg i fd -> resolve_step X fuel e (V pa []) = Ok v -> v_errs v = [].
    Proof.
      intros Ee H. destruct (own_message _ _ _ _ _ _ Ee) as (mpath & mfull & par & dm & Hm & Ef & K & Hfd).
      destruct (step_file (IField fd)) as (fl & g & V1 & V2 & V3 & V4 & V5 & _); [rewrite Ee; reflexivity|].
      assert (Forall (located (nth_error (raws p1))) evs) as Loc by exact p1_located. rewrite Forall_forall in Loc.
      pose proof (Loc _ step_in) as Le. 
      pose proof (kids_here 0 msg) as Kh. rewrite Ee in Le, H, V1, V2, V3, V5, Kh. cbn [ev_file_of] in V1, V2, V3, V5.
      unfold owned in Kh. cbn [owner] in Kh. rewrite !Nat.eqb_refl in Kh. specialize (Kh eq_refl).
      destruct Le as (fl' & L1 & L2 & _). rewrite p1_raws, V2 in L1. apply Some_inj in L1. subst fl'.
      destruct (ri_msgs _ _ _ _ _ _ R _ _ _ _ _ _ Hm) as (mi & M1 & M2 & M3 & M4 & M5 & M6).
      destruct (event_new p fs _ (IMessage dm) Hm eq_refl) as (k' & fl' & E1 & E2 & E3). cbn [ev_file_of ev_path ev_full] in E1, E3.
      assert (fl' = fl) as ->.
      { pose proof (files_new _ _ E2) as Q. rewrite <- E1, V2 in Q. apply Some_inj in Q. congruence. }
      apply message_declared in E3. destruct E3 as (scope & E3 & E4). destruct (fv_fields _ _ _ _ _ _ V1 _ _ _ E3) as (N1 & N2 & N3).
      rewrite <- E4 in N3. destruct (N3 _ Hfd) as (N4 & N5 & N6). rewrite <- Ef in N5.
      assert (dp_fields dm = flat_map ev_field (kids 0 msg done) ++ fd :: flat_map ev_field (kids 0 msg rest)) as Sp.
      { rewrite <- (fields_flat f msg mpath mfull (dp_fields dm)), <- K, Kh, flat_map_app. reflexivity. }
      assert (forall (B : Type) (h : fproto -> B), NoDup (map h (dp_fields dm)) -> forall e', In e' (kids 0 msg done) -> forall fd', In fd' (ev_field e') -> h fd' <> h fd) as Nd.
      { intros B h N e' He' fd' Hfd' E. rewrite Sp, map_app in N. cbn [map] in N. apply NoDup_remove_2 in N. apply N. apply in_or_app. left. rewrite <- E.
        apply in_map. apply in_flat_map. eauto. }
      assert (nth_error (p_messages pa) msg = Some mi) as Mi by exact M1.
      apply (typed_iff X p I fs p1 p1_NI p1_later vis f (fi_trans g) pa) in N5; [|exact V5|exact (ri_evals _ _ _ _ _ _ R)].
      destruct N5 as (kd & d & T & D).
      assert (number_spec (raws pa) (mids pa) msg fd) as NS.
      { rewrite (ri_raws _ _ _ _ _ _ R), (ri_mids _ _ _ _ _ _ R).
        apply (number_iff X p I fs p1 p1_NI p1_later p1_raws _ _ _ _ _ _ _ (step_all _ Hm)). exact N4. }
      cbn [resolve_step] in H. eapply (field_calm X _ _ _ _ _ _ _ _ g mi kd d H); try assumption.
      - rewrite V4. exact L2.
      - rewrite (ri_names _ _ _ _ _ _ R). exact T.
      - intros z Hz. specialize (N6 _ Hz). replace (length (m_oneofs mi)) with (length (dp_oneofs dm)); [exact N6|].
        rewrite <- (map_length o_id), M5, map_length. destruct (visit_cc o fs) as [_ Hcm]. fold evs in Hcm.
        rewrite (proj1 (Hcm _ Hm) 1%nat msg _ (or_intror (or_introl eq_refl))). unfold g_oneofs. symmetry. apply mapi_length.
      - destruct (bt_get (as_u32 (fp_number fd)) (m_numbers mi)) as [j|] eqn:B; [|reflexivity]. exfalso.
        apply (fo_numbers _ _ _ _ _ _ M6) in B. destruct B as (x & B1 & B2).
        destruct (F2_nth_r _ _ _ (fo_fields _ _ _ _ _ _ M6) _ _ B1) as (e' & B3 & B4). destruct e' as [| |epa efu efi ems ein fd'| | | | | |]; try contradiction. cbn in B4.
        destruct B4 as (g' & k0 & d0 & _ & NS' & _ & _ & _ & ->). cbn [field_of f_number] in B2.
        assert (legal_number (fp_number fd) = true) as Lg by (destruct NS as (? & ? & ? & ? & ? & ? & Q & _); exact Q).
        assert (legal_number (fp_number fd') = true) as Lg' by (destruct NS' as (? & ? & ? & ? & ? & ? & Q & _); exact Q).
        apply as_u32_legal in Lg. apply as_u32_legal in Lg'.
        apply (Nd _ fp_number N1 _ (nth_error_In _ _ B3) fd' (or_introl eq_refl)). congruence.
      - apply assoc_s_None. rewrite (fo_names _ _ _ _ _ _ M6), map_mapi_fst. intros Q. apply in_map_iff in Q. destruct Q as (e' & Q1 & Q2).
        assert (In e' (kids 0 msg evs)) as Q3 by (rewrite Kh; apply in_or_app; left; exact Q2).
        rewrite K in Q3. apply In_nth_error in Q3. destruct Q3 as [j Q3]. unfold g_fields in Q3. apply mapi_nth_inv in Q3. destruct Q3 as (fd' & _ & Q3).
        apply kids_in in Q2. subst e'. cbn in Q1. eapply (step_apart _ (IField fd') (IField fd) (proj1 Q2)); [reflexivity|rewrite Ee; reflexivity|].
        rewrite Ee. cbn [ev_full]. rewrite Ef, <- dotted_join. congruence.
      - apply assoc_s_None. rewrite (fo_jsons _ _ _ _ _ _ M6), map_mapi_fst. intros Q. apply in_map_iff in Q. destruct Q as (x & Q1 & Q2).
        apply In_nth_error in Q2. destruct Q2 as [j Q2].
        destruct (F2_nth_r _ _ _ (fo_fields _ _ _ _ _ _ M6) _ _ Q2) as (e' & B3 & B4). destruct e' as [| |epa efu efi ems ein fd'| | | | | |]; try contradiction. cbn in B4.
        destruct B4 as (g' & k0 & d0 & _ & _ & _ & _ & _ & ->). cbn [field_of f_json] in Q1.
        exact (Nd _ json_name N2 _ (nth_error_In _ _ B3) fd' (or_introl eq_refl) Q1).
    Qed.

    Lemma value_step path full f en i x v : e = EvEnumValue path full f en i x -> resolve_step X fuel e (V pa []) = Ok v -> v_errs v = [].
    Proof.
      intros Ee H. destruct (visit_cc o fs) as [Hcl Hcm]. fold evs in Hcl, Hcm.
      destruct (Hcl e 3%nat en step_in) as (h & Hh & Hd'); [rewrite Ee; reflexivity|].
      assert (exists epath efull ef par ep, h = EvEnum epath efull ef par en ep) as (epath & efull & ef & par & ep & ->).
      { destruct Hd' as [[l Hd']|[_ [g Hd']]].
        - destruct h; cbn in Hd'; try contradiction; [destruct Hd' as [Q|[Q|[]]]; discriminate|destruct Hd' as [Q|[]]; discriminate].
        - destruct h; try discriminate. cbn in Hd'. inversion Hd'; subst. eauto 6. }
      destruct (proj2 (Hcm _ Hh) en _ eq_refl) as (scope & K).
      pose proof (kids_here 3 en) as Kh. rewrite Ee in Kh. unfold owned in Kh. cbn [owner] in Kh. rewrite !Nat.eqb_refl in Kh. specialize (Kh eq_refl).
      assert (In e (kids 3 en evs)) as He by (rewrite Kh, Ee; apply in_or_app; right; left; reflexivity).
      assert (map ev_value (kids 3 en evs) = ep_values ep) as Kv.
      { rewrite K. apply values_flat. }
      destruct (event_new p fs _ (IEnum ep) Hh eq_refl) as (k' & fl & E1 & E2 & E3). cbn [ev_file_of ev_path ev_full] in E1, E3.
      apply enum_declared in E3. destruct E3 as (sc & E3 & E4). destruct (fv_values _ _ _ _ _ _ (FV _ _ E2) _ _ _ E3) as (N1 & N2).
      destruct (ri_enums _ _ _ _ _ _ R _ _ _ _ _ _ Hh) as (ei & M1 & M2 & M3 & M4 & M5 & M6).
      rewrite Ee in H. cbn [resolve_step] in H.
      assert (In x (ep_values ep)) as Hx. { rewrite <- Kv. apply in_map_iff. exists e. rewrite Ee at 1. auto. }
      eapply (enum_value_calm X _ _ _ _ _ _ _ _ ei H M1).
      - rewrite (ri_raws _ _ _ _ _ _ R), (ri_eids _ _ _ _ _ _ R).
        apply (enum_number_iff X p I fs p1 p1_NI p1_later p1_raws _ _ _ _ _ _ _ (step_all _ Hh)). intros lo hi Hin. exact (N1 _ _ _ Hx Hin).
      - intros Q. rewrite M5. apply alias_iff. destruct N2 as [N2|N2]; [exact N2|exfalso].
        pose proof (SO _ (snd x) (vo_sorted _ _ _ _ _ M6)) as S. destruct (x_search X (e_numbers ei) (snd x)) as [j b]. cbn in Q. subst b. destruct S as [kk S].
        apply nth_error_In in S. apply (Permutation_in _ (vo_perm _ _ _ _ _ M6)) in S. apply (in_map fst) in S. cbn in S.
        rewrite (map_mapi_snd (fun e => snd (ev_value e))) in S. rewrite <- Kv, map_map, Kh, map_app in N2. cbn [map ev_value] in N2.
        apply NoDup_remove_2 in N2. apply N2. apply in_or_app. left. exact S.
      - apply assoc_s_None. rewrite (vo_names _ _ _ _ _ M6), (map_mapi_fst (fun e => fst (ev_value e))). intros Q. apply in_map_iff in Q. destruct Q as (e' & Q1 & Q2).
        assert (In e' (kids 3 en evs)) as Q3 by (rewrite Kh; apply in_or_app; left; exact Q2).
        rewrite K in Q3, He. unfold g_values in Q3, He. apply In_nth_error in Q3. destruct Q3 as [j Q3]. apply mapi_nth_inv in Q3. destruct Q3 as (y & _ & Q3).
        apply In_nth_error in He. destruct He as [j' He]. apply mapi_nth_inv in He. destruct He as (y' & _ & He).
        apply kids_in in Q2. rewrite Ee in He. inversion He; subst y'. subst e'. cbn in Q1.
        eapply (step_apart _ _ _ (proj1 Q2)); [reflexivity|rewrite Ee; reflexivity|]. rewrite Ee. cbn [ev_full]. congruence.
    Qed.

    Lemma ext_step path full f par i fd v : e = EvExt path full f par i fd -> resolve_step X fuel e (V pa []) = Ok v -> v_errs v = [].
    Proof.
      intros Ee H. destruct (step_file (IExt fd)) as (fl & g & V1 & V2 & V3 & V4 & V5 & V6); [rewrite Ee; reflexivity|].
      rewrite Ee in H, V1, V2, V3, V5, V6. cbn [ev_file_of ev_path ev_full] in V1, V2, V3, V5, V6.
      destruct (fv_exts _ _ _ _ _ _ V1 _ _ _ V6) as [(dm & T & Nv) Ty].
      destruct (to_message_spec X p I fs p1 p1_NI vis f (fi_trans g) V5 _ _ _ T) as (mp & mn & mf & mpar & mi & S1 & S2).
      apply (typed_iff X p I fs p1 p1_NI p1_later vis f (fi_trans g) pa) in Ty; [|exact V5|exact (ri_evals _ _ _ _ _ _ R)].
      destruct Ty as (kd & d & Ty & D). cbn [resolve_step] in H.
      eapply (ext_calm X _ _ _ _ _ _ _ _ g mi kd d H V3).
      - rewrite (ri_names _ _ _ _ _ _ R). exact S1.
      - rewrite (ri_raws _ _ _ _ _ _ R), (ri_mids _ _ _ _ _ _ R).
        apply (number_iff X p I fs p1 p1_NI p1_later p1_raws _ _ _ _ _ _ _ S2). exact Nv.
      - rewrite (ri_names _ _ _ _ _ _ R). exact Ty.
      - exact D.
    Qed.
    Lemma method_step path full f s i m v : e = EvMethod path full f s i m -> resolve_step X fuel e (V pa []) = Ok v -> v_errs v = [].
    Proof.
      intros Ee H. destruct (step_file (IMethod m)) as (fl & g & V1 & V2 & V3 & V4 & V5 & V6); [rewrite Ee; reflexivity|].
      rewrite Ee in H, V1, V2, V3, V5, V6. cbn [ev_file_of ev_path ev_full] in V1, V2, V3, V5, V6.
      destruct (fv_methods _ _ _ _ _ _ V1 _ _ _ V6) as [(dm & T) (dm' & T')].
      destruct (to_message_spec X p I fs p1 p1_NI vis f (fi_trans g) V5 _ _ _ T) as (mp & mn & mf & mpar & mi & S1 & _).
      destruct (to_message_spec X p I fs p1 p1_NI vis f (fi_trans g) V5 _ _ _ T') as (mp' & mn' & mf' & mpar' & mi' & S1' & _).
      cbn [resolve_step] in H. rewrite <- (ri_names _ _ _ _ _ _ R) in S1, S1'. eapply (method_calm _ _ _ _ _ _ _ _ g mi mi' H V3 S1 S1').
    Qed.
    Lemma file_step path i f v : e = EvFile path i f -> resolve_step X fuel e (V pa []) = Ok v -> v_errs v = [].
    Proof.
      intros Ee H. rewrite Ee in H. cbn [resolve_step] in H.
      destruct (event_file p fs e step_in) as (k & f' & E1 & E2 & E3). rewrite Ee in E1, E3. cbn [ev_file_of] in E1, E3.
      pose proof step_in as He. rewrite Ee in He. apply step_all in He. apply step_all in E3.
      apply (file_all X p I fs) in He. apply (file_all X p I fs) in E3. destruct He as [-> He], E3 as [_ E3]. rewrite He in E3. apply Some_inj in E3. subst f'.
      destruct (fv_imports _ _ _ _ _ _ (FV _ _ E2)) as [D1 D2].
      eapply file_calm; [exact H| |exact D2]. intros d Hd'. rewrite (ri_fnames _ _ _ _ _ _ R). apply p1_file. exact (D1 _ Hd').
    Qed.
    Lemma step_calm v : resolve_step X fuel e (V pa []) = Ok v -> v_errs v = [].
    Proof.
      intros H. assert (exists x, e = x) as [x Ex] by eauto. destruct x.
      - eapply file_step; eassumption.
      - rewrite Ex in H. apply Ok_inj in H. subst v. reflexivity.
      - eapply field_step; eassumption.
      - rewrite Ex in H. apply Ok_inj in H. subst v. reflexivity.
      - rewrite Ex in H. cbn [resolve_step] in H. unfold resolve_service in H. apply rbind_ok in H. destruct H as [v1 [A H]].
        apply assert_ok in A. destruct A as [-> _]. apply Ok_inj in H. subst v. reflexivity.
      - eapply method_step; eassumption.
      - rewrite Ex in H. apply Ok_inj in H. subst v. reflexivity.
      - eapply value_step; eassumption.
      - eapply ext_step; eassumption.
    Qed.
  End Step.

  Lemma resolve_prefix done rest pa : evs = done ++ rest -> fold_res (resolve_step X fuel) done (V p1 []) = Ok (V pa []) -> RI X o p1 evs done pa.
  Proof.
    intros Hl H. destruct (visit_cc o fs) as [Hcl Hcm]. fold evs in Hcl, Hcm.
    revert H. apply (quiet_fold (resolve_step X fuel) (RI X o p1 evs) done).
    - intros a v v'. apply grows_resolve.
    - apply (RI_init X o p p1 evs p1_NI). apply sizes_of.
    - intros d e r pb pc E R Hs.
      apply (RI_step X o p p1 evs SO fuel (visit_scoped o fs) p1_located p1_NI Hcl Hcm d e (r ++ rest) pb pc); [|exact R|exact Hs].
      rewrite Hl, E, <- app_assoc. reflexivity.
  Qed.
  Lemma resolve_accepted v : (forall j f, nth_error fs j = Some f -> file_valid X files names vis (length (raws p) + j) f) ->
    fold_res (resolve_step X fuel) evs (V p1 []) = Ok v -> v_errs v = [].
  Proof.
    intros FV H. destruct (v_errs v) as [|er ers] eqn:E; [reflexivity|exfalso].
    destruct (first_noisy _ _ _ _ H) as (done & e & rest & pa & v1 & Hl & Hd & Hs & N); [congruence|].
    apply N. exact (step_calm done e rest pa Hl (resolve_prefix _ _ _ Hl Hd) Hd FV v1 Hs).
  Qed.

  (** ** No errors only with valid files *)
  Section Valid.
    Context (p2 : pool) (H2 : fold_res (resolve_step X fuel) evs (V p1 []) = Ok (V p2 [])).
    Lemma p2_RI : RI X o p1 evs evs p2.
    Proof. eapply resolve_prefix; [symmetry; apply app_nil_r|exact H2]. Qed.

    (** what new files declare is visited *)
    Lemma declared_new j f path n it : nth_error fs j = Some f -> declares_name f path n it ->
      exists e, In e evs /\ is_event e (length (raws p) + j) path n it.
    Proof.
      intros Hf (scope & D & ->). destruct (declared_visited _ o _ _ _ _ _ Hf D) as (e & He & Q). exists e. split; [exact He|].
      unfold o in Q. cbn [of_file offsets_of] in Q. rewrite <- (raws_len p) in Q. exact Q.
    Qed.
    Lemma file_p2 j f : nth_error fs j = Some f -> exists g, nth_error (p_files p2) (length (raws p) + j) = Some g /\
      (forall x, In x (fi_trans g) <-> vis (length (raws p) + j) x) /\ deps_spec (p_file_names p1) files (length (raws p) + j) f (fi_deps g) (fi_trans g).
    Proof.
      intros Hf. pose proof (visit_files_all fs o _ _ Hf) as He. fold evs in He. unfold o in He. cbn [of_file offsets_of] in He. rewrite <- (raws_len p) in He.
      destruct (ri_files _ _ _ _ _ _ p2_RI _ _ _ He) as (sy & deps & trans & _ & A & B). exists (FileI sy f deps trans).
      rewrite (ri_fnames _ _ _ _ _ _ p2_RI), (ri_raws _ _ _ _ _ _ p2_RI), p1_raws in B.
      split; [exact A|]. split; [|exact B]. intros x. eapply (HV evs []); [symmetry; apply app_nil_r|exact p2_RI|exact H2|exact He|exact A].
    Qed.
    Lemma numbers_nodup mi fds : (forall n j, bt_get n (m_numbers mi) = Some j <-> exists f, nth_error (m_fields mi) j = Some f /\ f_number f = n) ->
      Forall2 (fun fd x => f_number x = as_u32 (fp_number fd) /\ legal_number (fp_number fd) = true) fds (m_fields mi) -> NoDup (map fp_number fds).
    Proof.
      intros B F. apply NoDup_nth_error. intros i j Hi E. rewrite map_length in Hi.
      destruct (nth_error fds i) as [a|] eqn:A; [|apply nth_error_None in A; lia].
      rewrite !nth_error_map, A in E. destruct (nth_error fds j) as [b|] eqn:A'; [|discriminate]. cbn in E. apply Some_inj in E.
      destruct (F2_nth_l _ _ _ F _ _ A) as (x & X1 & X2 & _). destruct (F2_nth_l _ _ _ F _ _ A') as (y & Y1 & Y2 & _).
      assert (bt_get (as_u32 (fp_number a)) (m_numbers mi) = Some i) as Q1 by (apply B; eauto).
      assert (bt_get (as_u32 (fp_number a)) (m_numbers mi) = Some j) as Q2 by (apply B; exists y; split; [exact Y1|congruence]). congruence.
    Qed.

    Lemma fields_are_valid j f path scope m : nth_error fs j = Some f -> message_at f path scope m ->
      fields_valid X files names vis (length (raws p) + j) (dotted scope (dp_name m)) m.
    Proof.
      intros Hf M. destruct (file_p2 _ _ Hf) as (g & G1 & G2 & _).
      destruct (declared_new j f path (dotted scope (dp_name m)) (IMessage m) Hf) as (e & He & E1 & E2 & E3 & E4); [apply message_declared; eauto|].
      destruct e as [|mpath mfull mf par mi dm| | | | | | |]; try discriminate. cbn in E1, E2, E3, E4. inversion E4; subst. clear E4.
      destruct (ri_msgs _ _ _ _ _ _ p2_RI _ _ _ _ _ _ He) as (x & M1 & M2 & M3 & M4 & M5 & M6).
      destruct (visit_cc o fs) as [_ Hcm]. fold evs in Hcm. rewrite (proj1 (Hcm _ He) 0%nat mi _ (or_introl eq_refl)) in M6.
      set (full := dotted scope (dp_name m)) in *. set (k := (length (raws p) + j)%nat) in *.
      assert (Forall2 (fun fd y => (f_number y = as_u32 (fp_number fd) /\ legal_number (fp_number fd) = true) /\ f_json y = json_of fd /\
        number_valid m fd /\ typed X files names vis k (dotted full (fp_name fd)) fd /\
        (forall z, fp_oneof fd = Some z -> (0 <= z < Z.of_nat (length (dp_oneofs m)))%Z)) (dp_fields m) (m_fields x)) as F.
      { eapply F2_mapi; [|exact (fo_fields _ _ _ _ _ _ M6)]. intros i fd y S. cbn [fspec] in S.
        destruct S as (g' & kd & d & S1 & S2 & S3 & S4 & S5 & ->). rewrite G1 in S1. apply Some_inj in S1. subst g'.
        split; [split; [reflexivity|]; destruct S2 as (? & ? & ? & ? & ? & ? & Q & _); exact Q|]. split; [reflexivity|]. split; [|split].
        - rewrite (ri_raws _ _ _ _ _ _ p2_RI), (ri_mids _ _ _ _ _ _ p2_RI) in S2.
          apply (number_iff X p I fs p1 p1_NI p1_later p1_raws _ _ _ _ _ _ _ (step_all _ He)). exact S2.
        - apply (typed_iff X p I fs p1 p1_NI p1_later vis k (fi_trans g) p2); [exact G2|exact (ri_evals _ _ _ _ _ _ p2_RI)|].
          rewrite (ri_names _ _ _ _ _ _ p2_RI) in S3. rewrite dotted_join. eauto.
        - intros z Hz. rewrite Hz in S5. lia. }
      split; [|split].
      - eapply (numbers_nodup x); [exact (fo_numbers _ _ _ _ _ _ M6)|]. eapply F2_impl; [|exact F]. intros a b _ Q. apply Q.
      - replace (map json_name (dp_fields m)) with (map f_json (m_fields x)); [exact (fo_jsons_nd _ _ _ _ _ _ M6)|].
        clear - F. induction F as [|a b l l' H F IH]; [reflexivity|]. cbn [map]. rewrite IH. f_equal. apply H.
      - intros fd Hfd. apply In_nth_error in Hfd. destruct Hfd as [i Hi]. destruct (F2_nth_l _ _ _ F _ _ Hi) as (y & _ & _ & _ & Q). exact Q.
    Qed.
    Lemma values_are_valid j f path scope ep : nth_error fs j = Some f -> enum_at f path scope ep -> values_valid ep.
    Proof.
      intros Hf M.
      destruct (declared_new j f path (dotted scope (ep_name ep)) (IEnum ep) Hf) as (e & He & E1 & E2 & E3 & E4); [apply enum_declared; eauto|].
      destruct e as [| | | | | |epath efull ef par en ep'| |]; try discriminate. cbn in E1, E2, E3, E4. inversion E4; subst. clear E4.
      destruct (ri_enums _ _ _ _ _ _ p2_RI _ _ _ _ _ _ He) as (x & M1 & M2 & M3 & M4 & M5 & M6).
      destruct (visit_cc o fs) as [_ Hcm]. fold evs in Hcm. destruct (proj2 (Hcm _ He) en _ eq_refl) as [sc K].
      assert (map ev_value (kids 3 en evs) = ep_values ep) as Kv by (rewrite K; apply values_flat). split.
      - intros v lo hi Hv Hr. rewrite <- Kv in Hv. apply in_map_iff in Hv. destruct Hv as (e' & <- & He').
        pose proof (vo_reserved _ _ _ _ _ M6) as Q. rewrite Forall_forall in Q. specialize (Q _ He').
        rewrite (ri_raws _ _ _ _ _ _ p2_RI), (ri_eids _ _ _ _ _ _ p2_RI) in Q.
        exact (proj1 (enum_number_iff X p I fs p1 p1_NI p1_later p1_raws _ _ _ _ _ _ _ (step_all _ He)) Q _ _ Hr).
      - destruct (allow_alias ep) eqn:A; [left; apply alias_iff; exact A|right]. rewrite <- Kv, map_map. exact (vo_alias _ _ _ _ _ M6 eq_refl).
    Qed.
    Lemma ext_is_valid j f path n fd : nth_error fs j = Some f -> declares_name f path n (IExt fd) -> ext_valid X files names vis (length (raws p) + j) n fd.
    Proof.
      intros Hf M. destruct (file_p2 _ _ Hf) as (g & G1 & G2 & _). destruct (declared_new _ _ _ _ _ Hf M) as (e & He & E1 & E2 & E3 & E4).
      destruct e as [| | | | | | | |xpath xfull xf xpar xi fd']; try discriminate. cbn in E1, E2, E3, E4. inversion E4; subst. clear E4.
      destruct (ri_exts _ _ _ _ _ _ p2_RI _ _ _ _ _ _ He) as (x & _ & S). cbn [xspec] in S.
      destruct S as (g' & ex & kd & d & S1 & S2 & S3 & S4 & S5 & _). rewrite G1 in S1. apply Some_inj in S1. subst g'.
      rewrite (ri_names _ _ _ _ _ _ p2_RI) in S2, S4. rewrite (ri_raws _ _ _ _ _ _ p2_RI), (ri_mids _ _ _ _ _ _ p2_RI) in S3. split.
      - destruct (spec_to_message X p I fs p1 p1_NI vis _ (fi_trans g) G2 _ _ _ S2) as (mp & mn & mf & mpar & dm & T1 & T2).
        exists dm. split; [exact T2|]. apply (number_iff X p I fs p1 p1_NI p1_later p1_raws _ _ _ _ _ _ _ T1). exact S3.
      - apply (typed_iff X p I fs p1 p1_NI p1_later vis _ (fi_trans g) p2); [exact G2|exact (ri_evals _ _ _ _ _ _ p2_RI)|]. eauto.
    Qed.
    Lemma method_is_valid j f path n m : nth_error fs j = Some f -> declares_name f path n (IMethod m) -> method_valid files names vis (length (raws p) + j) n m.
    Proof.
      intros Hf M. destruct (file_p2 _ _ Hf) as (g & G1 & G2 & _). destruct (declared_new _ _ _ _ _ Hf M) as (e & He & E1 & E2 & E3 & E4).
      destruct e as [| | | | |xpath xfull xf s xi m'| | |]; try discriminate. cbn in E1, E2, E3, E4. inversion E4; subst. clear E4.
      destruct (visit_cc o fs) as [Hcl _]. fold evs in Hcl. destruct (Hcl _ 2%nat s He eq_refl) as (h & Hh & Hd').
      destruct Hd' as [[l Hd']|[? _]]; [|discriminate].
      destruct h as [|? ? ? ? ? dm| | |spath sfull sf si sp| | | |]; cbn in Hd'; try contradiction; [destruct Hd' as [Q|[Q|[]]]; discriminate|].
      destruct Hd' as [Q|[]]. inversion Q; subst si l. clear Q.
      destruct (ri_svcs _ _ _ _ _ _ p2_RI _ _ _ _ _ Hh) as (sv & _ & _ & F).
      set (e := EvMethod _ _ _ _ _ _) in *. assert (In e (kids 2 s evs)) as Hk.
      { apply filter_In. split; [exact He|]. unfold owned, e. cbn. rewrite !Nat.eqb_refl. reflexivity. }
      apply In_nth_error in Hk. destruct Hk as [q Hk]. destruct (F2_nth_l _ _ _ F _ _ Hk) as (me & _ & S). unfold e in S. cbn [mspec] in S.
      destruct S as (g' & inp & out & S1 & S2 & S3 & _). rewrite G1 in S1. apply Some_inj in S1. subst g'.
      rewrite (ri_names _ _ _ _ _ _ p2_RI) in S2, S3. split.
      - destruct (spec_to_message X p I fs p1 p1_NI vis _ (fi_trans g) G2 _ _ _ S2) as (mp & mn & mf & mpar & dm & _ & T2). eauto.
      - destruct (spec_to_message X p I fs p1 p1_NI vis _ (fi_trans g) G2 _ _ _ S3) as (mp & mn & mf & mpar & dm & _ & T2). eauto.
    Qed.
    Theorem resolve_valid j f : nth_error fs j = Some f -> file_valid X files names vis (length (raws p) + j) f.
    Proof.
      intros Hf. constructor.
      - destruct (file_p2 _ _ Hf) as (g & _ & _ & D). split.
        + intros name Hn. apply In_nth_error in Hn. destruct Hn as [i Hi]. destruct (F2_nth_l _ _ _ (ds_deps _ _ _ _ _ _ D) _ _ Hi) as (x & _ & A).
          apply p1_file. congruence.
        + pose proof (ds_pidx _ _ _ _ _ _ D) as P. pose proof (ds_widx _ _ _ _ _ _ D) as W. rewrite Forall_forall in P, W.
          intros z [Hz|Hz]; [specialize (P _ Hz)|specialize (W _ Hz)]; lia.
      - intros path scope m. apply fields_are_valid. exact Hf.
      - intros path scope e. apply values_are_valid with (j := j) (f := f). exact Hf.
      - intros path n fd. apply ext_is_valid. exact Hf.
      - intros path n m. apply method_is_valid. exact Hf.
    Qed.
  End Valid.
End Resolve.
