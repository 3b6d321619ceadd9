(** The first phase of a build finds no errors exactly when the names are valid. *)
From Coq Require Import String Permutation Sorted.
From Verif Require Import Base BaseProofs Value Descr Proto Build VisitProofs EventProofs BuildFrame BuildNames BuildQuiet BuildResolve BuildInv BuildSafe DeclSpec DeclProofs PoolFacts WalkOnce ValidSpec AcceptSteps.
From Coq Require Import List.
Local Open Scope list_scope.

Lemma file_covered evs : forall o i, scoped o evs -> (of_file o <= i < of_file (adv o evs))%nat ->
  exists path f, In (EvFile path i f) evs.
Proof.
  induction evs as [|e evs IH]; intros o i Hs R.
  - cbn in R. lia.
  - cbn [scoped] in Hs. destruct Hs as [H1 Hs]. rewrite adv_cons in R. pose proof (IH _ i Hs) as A.
    destruct (Nat.eq_dec i (of_file o)) as [-> |Hne].
    + destruct e; cbn in H1, R; try (destruct A as (? & ? & A); [cbn; lia|]; do 2 eexists; right; exact A).
      do 2 eexists. left. f_equal. lia.
    + destruct A as (? & ? & A); [|do 2 eexists; right; exact A]. destruct e; cbn in *; lia.
Qed.
Lemma file_events_flat fs : forall o, flat_map ev_file (visit o fs) = mapi (of_file o) (fun i f => (fl_name f, i)) fs.
Proof.
  intros o. rewrite visit_eq. revert o. induction fs as [|f fs IH]; intros o; [reflexivity|].
  change (g_files o (f :: fs)) with (g_files o ([f] ++ fs)). rewrite g_files_app, flat_map_app, IH.
  rewrite g_files_off. cbn [length mapi]. rewrite Nat.add_1_r.
  assert (forall es, (forall e, In e es -> forall path i g, e <> EvFile path i g) -> flat_map ev_file es = []) as Z.
  { induction es as [|e es IHe]; intros H; [reflexivity|]. cbn [flat_map]. rewrite IHe by (intros; apply H; right; assumption).
    pose proof (H e (or_introl eq_refl)) as Q. destruct e; try reflexivity. exfalso. eapply Q. reflexivity. }
  change (fl_name f :: nil) with (fl_name f :: nil). unfold g_files at 1. rewrite app_nil_r.
  pose proof (visit_once o [f]) as N. rewrite visit_eq in N. cbn [g_files] in N. rewrite app_nil_r in N.
  pose proof (g_file_ok o f) as K. rewrite Forall_forall in K.
  destruct (g_file o f) as [|e0 es] eqn:E; [unfold g_file in E; discriminate|].
  assert (e0 = EvFile [] (of_file o) f) as -> by (unfold g_file in E; congruence).
  cbn [flat_map ev_file app]. f_equal. f_equal.
  rewrite Z; [reflexivity|]. intros e He path i g ->. cbn [map] in N. inversion N as [|? ? N1 N2]; subst. apply N1.
  destruct (K _ (or_intror He)) as [_ Q]. cbn in Q. rewrite Q in He. apply (in_map place) in He. exact He.
Qed.

Lemma pkg_prefix f n : In n (pkg_prefixes f) <-> package_prefix f n.
Proof.
  unfold pkg_prefixes, package_prefix. destruct (fl_package f) as [|c s] eqn:E.
  - split; [intros []|intros [H _]; contradiction].
  - rewrite in_app_iff, before_dots_in. split.
    + intros [(a & b & H & ->)|[H|[]]]; (split; [discriminate|]); [right; exists b; exact H|left; exact H].
    + intros [_ [H|[r H]]]; [right; left; exact H|left; exists n, r; split; [exact H|reflexivity]].
Qed.
Lemma syntax_file f sy : syntax_of f sy <-> file_syntax f = Some sy.
Proof.
  unfold syntax_of, file_syntax. change b_proto2 with (s2b "proto2"%string). change b_proto3 with (s2b "proto3"%string).
  destruct (fl_syntax f) as [s|]; [|destruct sy; split; intros H; try discriminate; auto; destruct H; discriminate].
  destruct (bytes_eqb s (s2b "proto2"%string)) eqn:E2.
  - apply bytes_eqb_eq in E2. subst s. destruct sy; split; intros H; try discriminate; auto.
  - destruct (bytes_eqb s (s2b "proto3"%string)) eqn:E3.
    + apply bytes_eqb_eq in E3. subst s. destruct sy; split; intros H; try discriminate; auto. destruct H as [H|H]; discriminate.
    + destruct sy; (split; [|discriminate]); intros H.
      * destruct H as [H|H]; [discriminate|]. apply Some_inj in H. subst s. rewrite bytes_eqb_refl in E2. discriminate.
      * apply Some_inj in H. subst s. rewrite bytes_eqb_refl in E3. discriminate.
Qed.
Lemma squeezed_eq s : to_lower_without_underscores s = squeezed s.
Proof. reflexivity. Qed.

Lemma message_declared f path n m : declares_name f path n (IMessage m) <-> exists scope, message_at f path scope m /\ n = dotted scope (dp_name m).
Proof.
  split.
  - intros [scope [D ->]]. inversion D; subst. eauto.
  - intros [scope [D ->]]. exists scope. split; [constructor; exact D|reflexivity].
Qed.
Lemma enum_declared f path n m : declares_name f path n (IEnum m) <-> exists scope, enum_at f path scope m /\ n = dotted scope (ep_name m).
Proof.
  split.
  - intros [scope [D ->]]. inversion D; subst. eauto.
  - intros [scope [D ->]]. exists scope. split; [constructor; exact D|reflexivity].
Qed.

Section Phase.
  Context (X : externs) (p : pool) (I : Inv X p) (fs : list file) (Hu : unknown_files p fs).
  Let o := offsets_of p.
  Let evs := visit o fs.
  Let all := pool_events p ++ evs.

  Lemma all_visit : pool_events p ++ visit (offsets_of p) fs = visit off0 (raws p ++ fs).
  Proof. rewrite visit_app. fold (pool_events p). rewrite <- (iv_sizes _ _ I). reflexivity. Qed.
  Lemma thing_event k path n it : thing (raws p ++ fs) k path n it -> exists e, In e all /\ is_event e k path n it.
  Proof.
    intros [f [Hf [scope [D ->]]]]. destruct (declared_visited _ off0 _ _ _ _ _ Hf D) as [e [He Q]].
    exists e. split; [unfold all, evs, o; rewrite all_visit; exact He|exact Q].
  Qed.
  Lemma event_thing e it : In e all -> ev_item e = Some it -> thing (raws p ++ fs) (ev_file_of e) (ev_path e) (ev_full e) it.
  Proof.
    intros H E. unfold all, evs, o in H. rewrite all_visit in H. destruct (visit_ok _ _ _ H) as [k [f [Hk [Q1 Q2]]]].
    cbn in Q1. rewrite E in Q2. destruct Q2 as [scope [A [B _]]]. exists f. split; [rewrite Q1; exact Hk|]. exists scope. auto.
  Qed.
  Lemma file_all path i f : In (EvFile path i f) all <-> path = [] /\ nth_error (raws p ++ fs) i = Some f.
  Proof.
    unfold all, evs, o. rewrite all_visit. split.
    - intros H. destruct (visit_ok _ _ _ H) as [k [g [Hk [Q1 Q2]]]]. cbn in Q1, Q2. subst k. inversion Q2; subst. auto.
    - intros [-> H]. pose proof (visit_files_all _ off0 _ _ H) as Q. exact Q.
  Qed.
  Lemma event_file e : In e evs -> exists k f, ev_file_of e = (of_file o + k)%nat /\ nth_error fs k = Some f /\ In (EvFile [] (ev_file_of e) f) evs.
  Proof.
    intros H. destruct (visit_ok _ _ _ H) as [k [f [Hk [Q1 _]]]]. exists k, f. split; [exact Q1|]. split; [exact Hk|].
    rewrite Q1. apply visit_files_all. exact Hk.
  Qed.
  Lemma event_new e it : In e evs -> ev_item e = Some it -> exists k f, ev_file_of e = (of_file o + k)%nat /\ nth_error fs k = Some f /\
    declares_name f (ev_path e) (ev_full e) it.
  Proof.
    intros H E. destruct (visit_ok _ _ _ H) as [k [f [Hk [Q1 Q2]]]]. rewrite E in Q2. destruct Q2 as [scope [A [B _]]].
    exists k, f. split; [exact Q1|]. split; [exact Hk|]. exists scope. auto.
  Qed.

  (** the table of the names, once [done] of the events have been processed *)
  Section Table.
    Context (done : list event) (pa : pool) (HN : NI o p done pa).
    Let sofar := pool_events p ++ done.

    Lemma table_defs : filter nonpkg (p_names pa) = rev (flat_map ev_defs sofar).
    Proof.
      unfold sofar. rewrite flat_map_app, rev_app_distr, <- (iv_defs _ _ I). exact (ni_defs _ _ _ (ni_nn _ _ _ _ HN)).
    Qed.
    Lemma table_nodup : NoDup (map fst (p_names pa)).
    Proof. exact (ni_nodup _ _ _ (ni_nn _ _ _ _ HN) (iv_nodup _ _ I)). Qed.
    Lemma table_found n d : assoc_s n (p_names pa) = Some d ->
      (d_kind d = DPackage /\ exists path f, In (EvFile path (d_file d) f) sofar /\ package_prefix f n) \/
      (exists e it, In e sofar /\ ev_item e = Some it /\ ev_full e = n /\ d = Def (ev_file_of e) (ev_path e ++ [1%Z]) (ev_kind e)).
    Proof.
      intros H. apply assoc_s_In in H. destruct (nonpkg (n, d)) eqn:K.
      - right. assert (In (n, d) (filter nonpkg (p_names pa))) as Hf by (apply filter_In; auto).
        rewrite table_defs in Hf. apply in_rev in Hf. apply in_flat_map in Hf. destruct Hf as [e [He Hd]].
        destruct (ev_item e) as [it|] eqn:Ei; [|destruct e; try discriminate; destruct Hd].
        rewrite (ev_defs_item _ _ Ei) in Hd. destruct Hd as [Hd|[]]. exists e, it. inversion Hd; subst. auto.
      - left. assert (d_kind d = DPackage) as Ek by (unfold nonpkg in K; cbn in K; destruct (d_kind d); try discriminate; reflexivity).
        split; [exact Ek|]. destruct (ni_pkg1 _ _ _ (ni_nn _ _ _ _ HN) _ _ H Ek) as [Ho|(path & i & f & A & B & <-)].
        + destruct (iv_pkg1 _ _ I _ _ Ho Ek) as (path & i & f & A & B & <-). exists path, f.
          split; [apply in_or_app; left; exact A|apply pkg_prefix; exact B].
        + exists path, f. split; [apply in_or_app; right; exact A|apply pkg_prefix; exact B].
    Qed.
    Lemma table_event e it : In e sofar -> ev_item e = Some it ->
      assoc_s (ev_full e) (p_names pa) = Some (Def (ev_file_of e) (ev_path e ++ [1%Z]) (ev_kind e)).
    Proof.
      intros He Ei. apply nodup_assoc; [exact table_nodup|].
      assert (In (ev_full e, Def (ev_file_of e) (ev_path e ++ [1%Z]) (ev_kind e)) (filter nonpkg (p_names pa))) as Hf.
      { rewrite table_defs. apply -> in_rev. apply in_flat_map. exists e. split; [exact He|]. rewrite (ev_defs_item _ _ Ei). left. reflexivity. }
      apply filter_In in Hf. apply Hf.
    Qed.
    Lemma table_package path i f n : In (EvFile path i f) sofar -> package_prefix f n ->
      exists d, assoc_s n (p_names pa) = Some d /\ d_kind d = DPackage.
    Proof.
      intros H Hp. apply pkg_prefix in Hp. apply in_app_or in H. destruct H as [H|H].
      - destruct (iv_pkg2 _ _ I _ _ _ _ H Hp) as [d [A B]]. exists d. split; [|exact B].
        apply nodup_assoc; [exact table_nodup|]. apply (ni_old _ _ _ (ni_nn _ _ _ _ HN)). exact A.
      - destruct (ni_pkg2 _ _ _ (ni_nn _ _ _ _ HN) _ _ _ _ H Hp) as [d [A B]]. exists d. split; [|exact B].
        apply nodup_assoc; [exact table_nodup|exact A].
    Qed.
    Lemma table_syntax fi f' path : In (EvFile path fi f') done -> exists s, nth_error (p_files pa) fi = Some s /\ file_syntax f' = Some (fi_syntax s).
    Proof.
      intros H. destruct (ni_files _ _ _ _ _ (ni_nf _ _ _ _ HN) _ _ _ H) as [sy [A B]]. eexists. split; [exact B|exact A].
    Qed.
  End Table.

  (** ** Valid names give no errors *)
  Section Calm.
    Context (V1 : names_valid (raws p) fs).
    Context (done : list event) (e : event) (rest : list event) (Hl : evs = done ++ e :: rest) (pa : pool) (HN : NI o p done pa).

    Lemma sofar_all x : In x (pool_events p ++ done) -> In x all.
    Proof. unfold all. rewrite Hl. rewrite !in_app_iff. tauto. Qed.
    Lemma here_new : In e evs.
    Proof. rewrite Hl. apply in_or_app. right. left. reflexivity. Qed.
    Lemma here_all : In e all.
    Proof. apply in_or_app. right. exact here_new. Qed.
    Lemma here_apart x : In x (pool_events p ++ done) -> place x <> place e.
    Proof.
      intros H. apply (split_apart off0 (raws p ++ fs) (pool_events p ++ done) e rest); [|exact H].
      rewrite <- all_visit, <- app_assoc. f_equal. exact Hl.
    Qed.
    Lemma file_in_all path i f : In (EvFile path i f) all -> In f (raws p ++ fs).
    Proof. intros H. apply file_all in H. eapply nth_error_In. apply H. Qed.
    Lemma new_fresh it : ev_item e = Some it -> assoc_s (ev_full e) (p_names pa) = None.
    Proof.
      intros Ei. destruct (assoc_s (ev_full e) (p_names pa)) as [d|] eqn:E; [|reflexivity]. exfalso.
      pose proof (event_thing _ _ here_all Ei) as T.
      destruct (table_found _ _ HN _ _ E) as [[_ (path & f & A & B)]|(e' & it' & A & B & C & _)].
      - apply sofar_all in A. exact (nv_packages _ _ V1 _ _ _ _ _ T (file_in_all _ _ _ A) B).
      - pose proof (event_thing _ _ (sofar_all _ A) B) as T'. rewrite C in T'.
        destruct (nv_apart _ _ V1 _ _ _ _ _ _ _ T T') as [P1 P2]. apply (here_apart _ A). unfold place. congruence.
    Qed.
    Lemma new_name it v : ev_item e = Some it -> add_name (ev_file_of e) (ev_full e) (ev_path e ++ [1%Z]) (ev_kind e) (V pa []) = Ok v ->
      v = V (set_names ((ev_full e, Def (ev_file_of e) (ev_path e ++ [1%Z]) (ev_kind e)) :: p_names pa) pa) [].
    Proof.
      intros Ei H. pose proof (new_fresh _ Ei) as F. unfold add_name in H. cbn [v_pool] in H. rewrite F in H. apply Ok_inj in H. subst v. reflexivity.
    Qed.
    Lemma file_here fi s : nth_error (p_files pa) (ev_file_of e) = Some s -> fi = ev_file_of e ->
      exists k f, fi = (of_file o + k)%nat /\ nth_error fs k = Some f /\ file_syntax f = Some (fi_syntax s).
    Proof.
      intros Hf ->. destruct (event_file _ here_new) as (k & f & A & B & C). exists k, f. split; [exact A|]. split; [exact B|].
      assert (ev_file_of e < of_file (adv o done))%nat as L.
      { rewrite <- (ni_nfiles _ _ _ _ _ (ni_nf _ _ _ _ HN)). apply nth_error_Some. congruence. }
      assert (scoped o done) as Sc.
      { pose proof (visit_scoped o fs) as S0. fold evs in S0. rewrite Hl in S0. apply scoped_app in S0. apply S0. }
      destruct (file_covered done o (ev_file_of e) Sc) as (path & f' & D); [lia|].
      assert (In (EvFile path (ev_file_of e) f') evs) as D' by (rewrite Hl; apply in_or_app; left; exact D).
      assert (f' = f) as ->.
      { destruct (visit_files_in _ _ _ _ _ D') as (k' & E1 & E2). assert (k' = k) as -> by lia. congruence. }
      destruct (table_syntax _ _ HN _ _ _ D) as (s' & S1 & S2). congruence.
    Qed.

    Lemma names_calm v : names_step e (V pa []) = Ok v -> v_errs v = [].
    Proof.
      pose proof new_name as NA. pose proof new_fresh as NF. pose proof file_here as FH. pose proof here_new as HE. pose proof here_apart as AP. pose proof sofar_all as SA.
      pose proof (event_new e) as EN.
      destruct e as [path i f|path full f parent i m|path full f m i fd|path full f m i n|path full f i s|path full f s i m|path full f parent i en|path full f en i x|path full f parent i fd];
        cbn [names_step ev_file_of ev_path ev_full ev_kind ev_item] in *.
      - (* file *)
        clear NA EN FH. intros H. unfold names_file in H. apply rbind_ok in H. destruct H as [v1 [H1 H]]. apply assert_ok in H1. destruct H1 as [-> _].
        destruct (visit_files_in _ _ _ _ _ HE) as (k & -> & Hk). pose proof (nth_error_In _ _ Hk) as Hin.
        destruct (nv_syntax _ _ V1 _ Hin) as [sy Hsy]. apply syntax_file in Hsy. rewrite Hsy in H.
        assert (assoc_s (fl_name f) (p_file_names pa) = None) as Hn.
        { apply assoc_s_None. intros Q. rewrite (ni_fnames _ _ _ _ _ (ni_nf _ _ _ _ HN)), map_app in Q. apply in_app_or in Q.
          destruct Q as [Q|Q].
          - revert Q. apply assoc_s_None. unfold unknown_files in Hu. rewrite Forall_forall in Hu. apply Hu. exact Hin.
          - apply in_map_iff in Q. destruct Q as [[n j] [E Q]]. cbn in E. subst n. apply in_flat_map in Q. destruct Q as [e' [He' Q]].
            destruct e' as [path' i' f'| | | | | | | |]; cbn in Q; try contradiction. destruct Q as [Q|[]]. inversion Q; subst. clear Q.
            assert (In (EvFile path' j f') evs) as He2 by (rewrite Hl; apply in_or_app; left; exact He').
            destruct (visit_files_in _ _ _ _ _ He2) as (k' & -> & Hk').
            assert (k = k') as <-.
            { eapply (proj1 (NoDup_nth_error (map fl_name fs))); [exact (nv_files _ _ V1)| |].
              - rewrite map_length. apply nth_error_Some. congruence.
              - rewrite !nth_error_map, Hk, Hk'. cbn. congruence. }
            apply (AP (EvFile path' (of_file o + k) f')); [apply in_or_app; right; exact He'|].
            assert (path' = path) as ->; [|reflexivity].
            assert (In (EvFile path' (of_file o + k) f') all) as I1 by (apply in_or_app; right; exact He2).
            assert (In (EvFile path (of_file o + k) f) all) as I2 by (apply in_or_app; right; exact HE).
            apply file_all in I1. apply file_all in I2. destruct I1, I2. congruence. }
        cbn [v_pool] in H. rewrite Hn in H. cbn [rbind] in H. unfold on_pool in H. cbn [v_pool v_errs set_files p_file_names p_files p_names] in H.
        assert (forall n d, In n (pkg_prefixes f) -> assoc_s n (p_names pa) = Some d -> d_kind d = DPackage) as Pk.
        { intros n d Hn' Hd. destruct (table_found _ _ HN _ _ Hd) as [[E _]|(e' & it' & A & B & C & _)]; [exact E|]. exfalso.
          pose proof (event_thing _ _ (SA _ A) B) as T. rewrite C in T.
          apply (nv_packages _ _ V1 _ _ _ _ f T); [apply in_or_app; right; exact Hin|]. apply pkg_prefix. exact Hn'. }
        unfold pkg_prefixes in Pk. destruct (fl_package f) as [|c0 pkg]; [apply Ok_inj in H; subst v; reflexivity|].
        apply rbind_ok in H. destruct H as [v1 [H1 H]].
        destruct (add_pkgs_calm _ _ _ _ _ H1) as (news & -> & F).
        { intros n d Hn' Hd. apply (Pk n); [apply in_or_app; left; exact Hn'|exact Hd]. }
        apply add_name_calm in H; [destruct H as [-> | ->]; reflexivity|].
        intros d Hd. cbn [set_names p_names] in Hd. cbn [is_package andb].
        assert (d_kind d = DPackage) as ->; [|reflexivity].
        assert (In (c0 :: pkg, d) news \/ assoc_s (c0 :: pkg) (p_names pa) = Some d) as [Q|Q].
        { clear - Hd. induction news as [|[n' d'] news IH]; [right; exact Hd|]. cbn [app assoc_s] in Hd.
          destruct (bytes_eqb (c0 :: pkg) n') eqn:B.
          - apply bytes_eqb_eq in B. apply Some_inj in Hd. subst. left. left. reflexivity.
          - destruct (IH Hd); [left; right; assumption|right; assumption]. }
        + rewrite Forall_forall in F. exact (F _ Q).
        + apply (Pk (c0 :: pkg) d); [apply in_or_app; right; left; reflexivity|exact Q].
      - (* message *)
        intros H. unfold names_message in H. apply rbind_ok in H. destruct H as [v1 [H1 H]]. rewrite (NA _ _ eq_refl H1) in *. clear H1.
        apply rbind_ok in H. destruct H as [v2 [H2 H]]. apply assert_ok in H2. destruct H2 as [-> _].
        apply rbind_ok in H. destruct H as [fi [H2 H]]. apply at_ok in H2. unfold on_pool in H2, H. cbn [v_pool v_errs set_messages set_names p_files] in H2, H.
        destruct (FH f _ H2 eq_refl) as (k & fl & -> & Hk & Hsy).
        destruct (fi_syntax fi) eqn:Es; [apply Ok_inj in H; subst v; reflexivity|].
        destruct (EN _ HE eq_refl) as (k' & fl' & Ek & Hk' & D). assert (k' = k) as -> by lia. assert (fl' = fl) as -> by congruence.
        apply message_declared in D. destruct D as [scope [D _]].
        rewrite camel_calm in H; [apply Ok_inj in H; subst v; reflexivity| |intros x _ []].
        exact (nv_fields _ _ V1 _ _ _ _ (nth_error_In _ _ Hk) (proj2 (syntax_file _ _) Hsy) D).
      - intros H. rewrite (NA _ _ eq_refl H). reflexivity.
      - intros H. unfold names_oneof in H. apply rbind_ok in H. destruct H as [v1 [H1 H]]. rewrite (NA _ _ eq_refl H1) in *.
        apply rbind_ok in H. destruct H as [mi [_ H]]. apply rbind_ok in H. destruct H as [v2 [H2 H]]. apply assert_ok in H2. destruct H2 as [-> _].
        apply Ok_inj in H. subst v. reflexivity.
      - intros H. rewrite (NA _ _ eq_refl H). reflexivity.
      - intros H. rewrite (NA _ _ eq_refl H). reflexivity.
      - (* enum *)
        intros H. unfold names_enum in H. apply rbind_ok in H. destruct H as [v1 [H1 H]]. rewrite (NA _ _ eq_refl H1) in *. clear H1.
        apply rbind_ok in H. destruct H as [v2 [H2 H]].
        destruct (EN _ HE eq_refl) as (k' & fl' & Ek & Hk' & D). apply enum_declared in D. destruct D as [scope [D _]].
        destruct (nv_enums _ _ V1 _ _ _ _ (nth_error_In _ _ Hk') D) as (x & xs & Ev & Z). rewrite Ev in H2.
        apply rbind_ok in H2. destruct H2 as [fi [H2 H3]]. apply at_ok in H2. cbn [v_pool set_names p_files] in H2.
        destruct (FH f _ H2 eq_refl) as (k & fl & -> & Hk & Hsy). assert (k' = k) as -> by lia. assert (fl' = fl) as -> by congruence.
        assert (v_errs v2 = []) as E2.
        { destruct (fi_syntax fi) eqn:Es; [apply Ok_inj in H3; subst v2; reflexivity|].
          rewrite (Z (proj2 (syntax_file _ _) Hsy)) in H3. cbn in H3. apply Ok_inj in H3. subst v2. reflexivity. }
        apply rbind_ok in H. destruct H as [v3 [H4 H]]. apply assert_ok in H4. destruct H4 as [-> _].
        apply Ok_inj in H. subst v. exact E2.
      - intros H. unfold names_enum_value in H. apply rbind_ok in H. destruct H as [v1 [H1 H]]. rewrite (NA _ _ eq_refl H1) in *.
        apply rbind_ok in H. destruct H as [mi [_ H]]. apply rbind_ok in H. destruct H as [v2 [H2 H]]. apply assert_ok in H2. destruct H2 as [-> _].
        apply Ok_inj in H. subst v. reflexivity.
      - intros H. rewrite (NA _ _ eq_refl H). reflexivity.
    Qed.
  End Calm.

  Lemma names_prefix done rest pa : evs = done ++ rest -> fold_res names_step done (V p []) = Ok (V pa []) -> NI o p done pa.
  Proof.
    intros Hl H. apply (quiet_fold names_step (NI o p) done (fun e v v' => grows_names e v v') p pa (NI_init p)); [|exact H].
    intros d e r a b E. apply (names_NI o p d e r). rewrite <- E.
    pose proof (visit_scoped o fs) as S0. fold evs in S0. rewrite Hl in S0. apply scoped_app in S0. apply S0.
  Qed.
  Theorem names_accepted v : names_valid (raws p) fs -> fold_res names_step evs (V p []) = Ok v -> v_errs v = [].
  Proof.
    intros V1 H. destruct (v_errs v) as [|er es] eqn:E; [reflexivity|]. exfalso.
    destruct (first_noisy names_step evs p v H) as (done & e & rest & pa & v1 & Hl & F & G & Q); [congruence|].
    apply Q. eapply (names_calm V1 done e rest Hl pa); [|exact G]. eapply names_prefix; eassumption.
  Qed.

  (** ** No errors only with valid names *)
  Context (p1 : pool) (HN : NI o p evs p1).
  Theorem names_are_valid : names_valid (raws p) fs.
  Proof.
    constructor.
    - intros f Hf. apply In_nth_error in Hf. destruct Hf as [k Hk]. destruct (table_syntax _ _ HN _ _ _ (visit_files_all fs o k f Hk)) as (s & _ & S2).
      exists (fi_syntax s). apply syntax_file. exact S2.
    - pose proof (ni_fnodup _ _ _ _ _ (ni_nf _ _ _ _ HN) (iv_fnodup _ _ I)) as N.
      rewrite (ni_fnames _ _ _ _ _ (ni_nf _ _ _ _ HN)), map_app in N. unfold evs in N. rewrite file_events_flat, mapi_map in N.
      assert (mapi (of_file o) (fun n a => fst (fl_name a, n)) fs = map fl_name fs) as E.
      { clear. generalize (of_file o). induction fs as [|f l IH]; intros n; [reflexivity|]. cbn [mapi map fst]. f_equal. apply IH. }
      rewrite E in N. clear - N. induction (map fst (p_file_names p)) as [|a l IH]; [exact N|]. apply IH. inversion N; assumption.
    - intros k path n it k' path' it' T T'. destruct (thing_event _ _ _ _ T) as (e & He & E1 & E2 & E3 & E4).
      destruct (thing_event _ _ _ _ T') as (e' & He' & F1 & F2 & F3 & F4).
      pose proof (table_event _ _ HN e it He E4) as A. pose proof (table_event _ _ HN e' it' He' F4) as B.
      rewrite E3 in A. rewrite F3 in B. rewrite A in B. apply Some_inj in B. inversion B as [[Q1 Q2 Q3]]. apply app_inv_tail in Q2.
      split; congruence.
    - intros k path n it f T Hf Hp. destruct (thing_event _ _ _ _ T) as (e & He & E1 & E2 & E3 & E4).
      apply In_nth_error in Hf. destruct Hf as [j Hj].
      destruct (table_package _ _ HN [] j f n (proj2 (file_all _ _ _) (conj eq_refl Hj)) Hp) as (d & A & B).
      pose proof (table_event _ _ HN e it He E4) as C. rewrite E3, A in C. apply Some_inj in C. subst d. destruct e; discriminate.
    - intros f path scope m Hf Hs D. apply In_nth_error in Hf. destruct Hf as [k Hk].
      destruct (declared_visited fs o k f path scope (IMessage m) Hk (de_message _ _ _ _ D)) as (e & He & E1 & E2 & E3 & E4).
      destruct e; try discriminate. cbn [ev_file_of ev_item] in E1, E4. apply Some_inj in E4. inversion E4; subst.
      destruct (table_syntax _ _ HN _ _ _ (visit_files_all fs o k f Hk)) as (s & S1 & S2).
      apply (proj2 (ni_msgs _ _ _ _ (ni_nm _ _ _ _ HN) _ _ _ _ _ _ He)). unfold syntax_at. rewrite S1. cbn.
      apply syntax_file in Hs. congruence.
    - intros f path scope e0 Hf D. apply In_nth_error in Hf. destruct Hf as [k Hk].
      destruct (declared_visited fs o k f path scope (IEnum e0) Hk (de_enum _ _ _ _ D)) as (e & He & E1 & E2 & E3 & E4).
      destruct e; try discriminate. cbn [ev_file_of ev_item] in E1, E4. apply Some_inj in E4. inversion E4; subst.
      destruct (table_syntax _ _ HN _ _ _ (visit_files_all fs o k f Hk)) as (s & S1 & S2).
      destruct (ni_enums _ _ _ _ (ni_ne _ _ _ _ HN) _ _ _ _ _ _ He) as (_ & N & Z).
      destruct (ep_values e0) as [|x xs]; [contradiction|]. exists x, xs. split; [reflexivity|]. intros Hs.
      unfold syntax_at in Z. rewrite S1 in Z. apply syntax_file in Hs. destruct Z as (v & vs & E & Q); [cbn; congruence|].
      inversion E; subst. exact Q.
  Qed.

  Lemma sort_event e it : ev_item e = Some it -> sort_of (ev_kind e) it.
  Proof. destruct e; cbn; intros H; try discriminate; apply Some_inj in H; subst it; exact Logic.I. Qed.
  Theorem names_are_table : names_of (raws p ++ fs) (fun n => assoc_s n (p_names p1)).
  Proof.
    split.
    - intros n d H. unfold stands_for. destruct (table_found _ _ HN _ _ H) as [[E (path & f & A & B)]|(e & it & A & B & C & ->)].
      + rewrite E. apply file_all in A. exists f. split; [apply A|exact B].
      + pose proof (event_thing _ _ A B) as T. pose proof (sort_event _ _ B) as S0. rewrite C in T.
        cbn [d_kind d_path d_file]. destruct e; cbn [ev_kind] in *; try discriminate; eexists _, it; (split; [reflexivity|]); split; assumption.
    - intros n d H. unfold stands_for in H.
      assert (forall path it, thing (raws p ++ fs) (d_file d) path n it -> assoc_s n (p_names p1) <> None) as Q.
      { intros path it T. destruct (thing_event _ _ _ _ T) as (e & He & E1 & E2 & E3 & E4).
        rewrite <- E3, (table_event _ _ HN e it He E4). discriminate. }
      destruct (d_kind d); try (destruct H as (path & it & _ & T & _); exact (Q _ _ T)).
      destruct H as (f & Hf & Hp). destruct (table_package _ _ HN [] _ f n (proj2 (file_all _ _ _) (conj eq_refl Hf)) Hp) as (d' & A & _).
      congruence.
  Qed.
End Phase.
