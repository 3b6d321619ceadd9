(** The files a file sees, for the theorems about accepted files. *)
From Coq Require Import String.
From Verif Require Import Base BaseProofs Value Descr Proto Build VisitProofs EventProofs BuildFrame BuildNames BuildQuiet BuildResolve BuildInv BuildSafe DeclSpec DeclProofs PoolFacts PoolMembers ResolveSpec Prop_Resolve ValidSpec AcceptSteps AcceptNames AcceptResolve.
From Coq Require Import List.
Local Open Scope list_scope.

(** ** What the resolver collects *)

(** a pool that has the files and nothing else *)
Definition files_only (fs : list file) : pool :=
  Pool [] (mapi 0 (fun i f => (fl_name f, i)) fs) (map (fun f => FileI Proto2 f [] []) fs) [] [] [] [].
Fixpoint gather (fuel : nat) (p : pool) (ds : list str) (t : list nat) : res (list nat) :=
  match ds with
  | [] => Ok t
  | d :: r =>
      match assoc_s d (p_file_names p) with
      | Some i => let! t := resolve_public fuel p (fst (set_insert i t)) i in gather fuel p r t
      | None => gather fuel p r t
      end
  end.
(** [x] is in the set collected for file [k] *)
Definition collected (fuel : nat) (fs : list file) (k x : nat) : Prop :=
  exists f t, nth_error fs k = Some f /\ gather fuel (files_only fs) (fl_deps f) [k] = Ok t /\ In x t.

Lemma public_same fuel : forall p q deps i, p_file_names p = p_file_names q -> raws p = raws q ->
  resolve_public fuel p deps i = resolve_public fuel q deps i.
Proof.
  induction fuel as [|fuel IH]; intros p q deps i E R; [reflexivity|]. cbn [resolve_public].
  assert (nth_error (raws p) i = nth_error (raws q) i) as Ei by (rewrite R; reflexivity). unfold raws in Ei. rewrite !nth_error_map in Ei.
  unfold at_. destruct (nth_error (p_files p) i) as [a|], (nth_error (p_files q) i) as [b|]; try discriminate; [|reflexivity].
  cbn in Ei. apply Some_inj in Ei. cbn [rbind]. rewrite Ei, E. generalize 0%nat. revert deps. generalize (fl_deps (fi_raw b)).
  intros ds. induction ds as [|d ds IHd]; intros deps n; [reflexivity|].
  destruct (assoc_s d (p_file_names q)) as [di|]; [|apply IHd]. destruct (is_public (fi_raw b) n); [|apply IHd].
  destruct (set_insert di deps) as [deps' fresh]. destruct (negb fresh); [|apply IHd]. rewrite (IH p q deps' di E R).
  destruct (resolve_public fuel q deps' di); cbn [rbind]; try reflexivity. apply IHd.
Qed.
Lemma gather_deps fuel index q : forall ds k trans p t v, p_file_names p = p_file_names q -> raws p = raws q ->
  resolve_deps fuel index k ds trans (V p []) = Ok (t, v) -> v_errs v = [] -> gather fuel q ds trans = Ok t.
Proof.
  induction ds as [|d ds IH]; intros k trans p t v E R H Q; cbn [resolve_deps gather] in *; [inversion H; reflexivity|].
  cbn [v_pool] in H. rewrite E in H. destruct (assoc_s d (p_file_names q)) as [di|].
  - apply rbind_ok in H. destruct H as [fi [_ H]]. apply rbind_ok in H. destruct H as [t1 [H1 H]].
    unfold on_pool in H1, H. cbn [v_pool v_errs] in H1, H.
    assert (raws (set_files (p_file_names p) (upd index (fi_push_dep di) (p_files p)) p) = raws q) as R' by (rewrite raws_upd; [exact R|reflexivity]).
    rewrite <- E in H1, H || idtac. rewrite (public_same fuel _ q) in H1; [|exact E|exact R']. rewrite H1. cbn [rbind].
    eapply IH; [| |exact H|exact Q]; assumption.
  - exfalso. apply rbind_ok in H. destruct H as [v1 [H1 H]]. apply (noisy_push _ _ _ _ H1).
    exact (grows_quiet _ _ (grows_deps _ _ _ _ _ _ _ _ H) Q).
Qed.

Section Visible.
  Context (X : externs) (SO : search_ok X) (p : pool) (I : Inv X p) (fs : list file) (Hu : unknown_files p fs).
  Let o := offsets_of p.
  Let evs := visit o fs.
  Context (p1 : pool) (H1 : fold_res names_step evs (V p []) = Ok (V p1 [])) (fuel : nat).
  Let files := raws p ++ fs.

  Lemma only_names : p_file_names p1 = p_file_names (files_only files).
  Proof. rewrite (p1_fnames X p I fs Hu p1 H1). reflexivity. Qed.
  Lemma only_raws : raws p1 = raws (files_only files).
  Proof. rewrite (p1_raws X p I fs Hu p1 H1). unfold raws, files_only. cbn [p_files]. rewrite map_map. cbn. symmetry. apply map_id. Qed.

  Lemma file_trans pa pb i f : nth_error (p_files pa) i = Some (FileI (match nth_error (p_files pa) i with Some g => fi_syntax g | None => Proto2 end) f [] []) ->
    p_file_names pa = p_file_names p1 -> raws pa = raws p1 ->
    resolve_file fuel i f (V pa []) = Ok (V pb []) ->
    exists g, nth_error (p_files pb) i = Some g /\ gather fuel (files_only files) (fl_deps f) [i] = Ok (fi_trans g).
  Proof.
    intros H0 En Er H. unfold resolve_file in H. apply rbind_ok in H. destruct H as [[t [p3 es]] [A H]].
    apply rbind_ok in H. destruct H as [fi [Hf H]]. apply at_ok in Hf. cbn [v_pool] in Hf. apply rbind_ok in H. destruct H as [v2 [H2 H]].
    unfold on_pool in H2. cbn [v_pool v_errs] in H2.
    assert (v_errs v2 = []) as E2.
    { refine (grows_quiet v2 _ _ _); [eapply grows_fold; [|exact H]; intros; eapply grows_import; eassumption|reflexivity]. }
    assert (es = []) as ->.
    { refine (grows_quiet (V (set_files (p_file_names p3) (upd i (fi_set_trans t) (p_files p3)) p3) es) v2 _ E2).
      eapply grows_fold; [|exact H2]; intros; eapply grows_import; eassumption. }
    apply (quiet_fold_pred _ (fun z => (0 <= z)%Z /\ (Z.to_nat z < length (fl_deps f))%nat)) in H2;
      [|intros; eapply import_quiet; eassumption|intros; eapply grows_import; eassumption].
    destruct H2 as [[-> P1]|N]; [|contradiction].
    apply (quiet_fold_pred _ (fun z => (0 <= z)%Z /\ (Z.to_nat z < length (fl_deps f))%nat)) in H;
      [|intros; eapply import_quiet; eassumption|intros; eapply grows_import; eassumption].
    destruct H as [[Hp P2]|N]; [|contradiction]. injection Hp as ->. cbn [set_files p_files].
    exists (fi_set_trans t fi). split; [rewrite nth_upd, Nat.eqb_refl, Hf; reflexivity|]. cbn [fi_set_trans fi_trans].
    eapply gather_deps; [| |exact A|reflexivity]; [rewrite En; exact only_names|rewrite Er; exact only_raws].
  Qed.
  (** other steps leave the files alone *)
  Lemma step_files done e rest pa pb : evs = done ++ e :: rest -> RI X o p1 evs done pa -> (forall path i f, e <> EvFile path i f) ->
    resolve_step X fuel e (V pa []) = Ok (V pb []) -> p_files pb = p_files pa.
  Proof.
    intros Hl R Nf H. pose proof (p1_located X p I fs Hu p1 H1) as Loc. rewrite Forall_forall in Loc.
    assert (In e evs) as He by (rewrite Hl; apply in_or_app; right; left; reflexivity). specialize (Loc _ He).
    assert (forall f raw, nth_error (raws p1) f = Some raw -> exists g, nth_error (p_files pa) f = Some g /\ fi_raw g = raw) as Hraw.
    { intros f raw Hf. rewrite <- (ri_raws _ _ _ _ _ _ R) in Hf. apply nth_map_some in Hf. exact Hf. }
    destruct e; cbn [resolve_step] in H; try (inversion H; subst; reflexivity).
    - exfalso. eapply Nf. reflexivity.
    - destruct Loc as (raw & L1 & L2 & _). destruct (Hraw _ _ L1) as (g & G1 & G2).
      destruct (field_quiet X _ _ _ _ _ _ _ _ _ _ G1 G2 L2 H) as (m & k & d & _ & _ & _ & _ & _ & _ & _ & _ & _ & ->). reflexivity.
    - unfold resolve_service in H. apply rbind_ok in H. destruct H as [v1 [A H]]. apply assert_ok in A. destruct A as [-> _]. inversion H; subst. reflexivity.
    - destruct Loc as (raw & L1 & _). destruct (Hraw _ _ L1) as (g & G1 & G2).
      destruct (method_quiet _ _ _ _ _ _ _ _ _ G1 H) as (s & i & out & _ & _ & _ & _ & ->). reflexivity.
    - destruct (enum_value_quiet X _ _ _ _ _ _ _ _ H) as (en & pos & found & _ & _ & _ & _ & _ & ->). reflexivity.
    - destruct Loc as (raw & L1 & _). destruct (Hraw _ _ L1) as (g & G1 & G2).
      destruct (ext_quiet X _ _ _ _ _ _ _ _ _ G1 H) as (ex & k & d & _ & _ & _ & _ & _ & ->). reflexivity.
  Qed.

  Lemma collected_right : seen_right X p fs p1 fuel (collected fuel files).
  Proof.
    intros done rest pa path i f fi x Hl R Hd Hin Hfi.  change (evs = done ++ rest) in Hl.
    assert (forall path i f, In (EvFile path i f) done -> exists g, nth_error (p_files pa) i = Some g /\ gather fuel (files_only files) (fl_deps f) [i] = Ok (fi_trans g)) as G.
    { clear path i f fi x Hin Hfi. revert Hd. intros Hd.
      assert (RI X o p1 evs done pa /\ forall path i f, In (EvFile path i f) done -> exists g, nth_error (p_files pa) i = Some g /\ gather fuel (files_only files) (fl_deps f) [i] = Ok (fi_trans g)) as [_ Q]; [|exact Q].
      pose proof (visit_cc o fs) as [Hcl Hcm].
      revert Hd. apply (quiet_fold (resolve_step X fuel) (fun done pa => RI X o p1 evs done pa /\ forall path i f, In (EvFile path i f) done -> exists g, nth_error (p_files pa) i = Some g /\ gather fuel (files_only files) (fl_deps f) [i] = Ok (fi_trans g)) done).
      - intros a v v'. apply grows_resolve.
      - split; [|intros path i f []]. apply (RI_init X o p p1 evs (p1_NI p fs p1 H1)). apply sizes_of.
      - intros d e r pb pc E [Rb Gb] Hs.
        assert (evs = d ++ e :: (r ++ rest)) as Hl' by (rewrite Hl, E, <- app_assoc; reflexivity).
        pose proof (RI_step X o p p1 evs SO fuel (visit_scoped o fs) (p1_located X p I fs Hu p1 H1) (p1_NI p fs p1 H1) Hcl Hcm d e (r ++ rest) pb pc Hl' Rb Hs) as Rc.
        split; [exact Rc|]. intros path i f Hi. apply in_app_or in Hi.
        assert (scoped o d /\ scoped1 (adv o d) e) as [Sd Se].
        { pose proof (visit_scoped o fs) as Sc. fold evs in Sc. rewrite Hl' in Sc. apply scoped_app in Sc. destruct Sc as [S1 [S2 _]]. auto. }
        assert ((exists path i f, e = EvFile path i f) \/ (forall path i f, e <> EvFile path i f)) as [(pe & ie & fe & ->)|Nf].
        { destruct e; [left; eauto|right..]; discriminate. }
        + cbn in Se. subst ie.
          assert (In (EvFile pe (of_file (adv o d)) fe) evs) as He by (rewrite Hl'; apply in_or_app; right; left; reflexivity).
          destruct (ni_files _ _ _ _ _ (ni_nf _ _ _ _ (p1_NI p fs p1 H1)) _ _ _ He) as [sy [Hsy Hf1]].
          assert (nth_error (p_files pb) (of_file (adv o d)) = Some (FileI sy fe [] [])) as Hfb by (rewrite (ri_todo _ _ _ _ _ _ Rb) by lia; exact Hf1).
          destruct Hi as [Hi|[Hi|[]]].
          * destruct (Gb _ _ _ Hi) as (g & G1 & G2). exists g. split; [|exact G2].
            cbn [resolve_step] in Hs. apply file_quiet with (sy := sy) in Hs; [|exact Hfb]. destruct Hs as [deps [trans [_ ->]]].
            cbn [set_files p_files]. rewrite nth_upd. pose proof (file_lt _ _ _ Sd Hi) as Lt. cbn in Lt.
            destruct (Nat.eqb_spec (of_file (adv o d)) i); [lia|exact G1].
          * inversion Hi; subst path i f. cbn [resolve_step] in Hs. eapply file_trans; [|exact (ri_fnames _ _ _ _ _ _ Rb)|exact (ri_raws _ _ _ _ _ _ Rb)|exact Hs].
            rewrite Hfb. reflexivity.
        + destruct Hi as [Hi|[Hi|[]]]; [|exfalso; exact (Nf _ _ _ Hi)]. rewrite (step_files d e (r ++ rest) pb pc Hl' Rb Nf Hs). exact (Gb _ _ _ Hi). }
    destruct (G _ _ _ Hin) as (g & G1 & G2). rewrite Hfi in G1. apply Some_inj in G1. subst g.
    assert (nth_error files i = Some f) as Hf.
    { apply (file_all X p I fs path i f). apply in_or_app. right. fold o. fold evs. rewrite Hl. apply in_or_app. left. exact Hin. }
    unfold collected. split.
    - intros Hx. eauto.
    - intros (f' & t & F & T & Hx). fold files in Hf. rewrite Hf in F. apply Some_inj in F. subst f'. rewrite G2 in T. apply Ok_inj in T. subst t. exact Hx.
  Qed.

  (** ** When public imports do not chain, that is all a file can see *)
  Lemma sees_right : (forall a b c, public_import files a b -> ~ public_import files b c) -> seen_right X p fs p1 fuel (sees files).
  Proof.
    intros Short done rest pa path i f fi x Hl R Hd Hin Hfi. change (evs = done ++ rest) in Hl.
    assert (nth_error files i = Some f) as Hf.
    { apply (file_all X p I fs path i f). apply in_or_app. right. fold o. fold evs. rewrite Hl. apply in_or_app. left. exact Hin. }
    destruct (ri_files _ _ _ _ _ _ R _ _ _ Hin) as (sy & deps & trans & _ & A & D). rewrite Hfi in A. apply Some_inj in A. subst fi. cbn [fi_trans].
    rewrite (ri_fnames _ _ _ _ _ _ R), (ri_raws _ _ _ _ _ _ R), (p1_raws X p I fs Hu p1 H1) in D. fold files in D.
    pose proof (p1_file_index X p I fs Hu p1 H1) as FI. fold files in FI.
    assert (forall a y, pub_dep (p_file_names p1) files a y <-> public_import files a y) as PD.
    { intros a y. unfold pub_dep, public_import, imports_at. split.
      - intros (g & k & d & Q1 & Q2 & Q3 & Q4). apply FI in Q4. destruct Q4 as (h & Q4 & Q5). exists g, k. split; [exact Q1|]. split; [apply public_in; exact Q3|]. exists g, h, d. auto.
      - intros (g & k & Q1 & Q2 & g' & h & d & Q3 & Q4 & Q5 & Q6). rewrite Q1 in Q3. apply Some_inj in Q3. subst g'.
        exists g, k, d. split; [exact Q1|]. split; [exact Q4|]. split; [apply public_in; exact Q2|]. apply FI. eauto. }
    assert (forall j, In j deps <-> imports files i j) as DI.
    { intros j. pose proof (ds_deps _ _ _ _ _ _ D) as F. split.
      - intros H. apply In_nth_error in H. destruct H as [k Hk]. destruct (F2_nth_r _ _ _ F _ _ Hk) as (d & Hd' & A). apply FI in A. destruct A as (g & G1 & G2).
        exists k, f, g, d. auto.
      - intros (k & f' & g & d & Q1 & Q2 & Q3 & Q4). rewrite Hf in Q1. apply Some_inj in Q1. subst f'. destruct (F2_nth_l _ _ _ F _ _ Q2) as (j' & Hj & A).
        assert (assoc_s d (p_file_names p1) = Some j) as A' by (apply FI; eauto). rewrite A in A'. apply Some_inj in A'. subst j'. eapply nth_error_In. exact Hj. }
    split.
    - intros Hx. destruct (ds_sound _ _ _ _ _ _ D _ Hx) as [-> |(j & Hj & P)]; [left; reflexivity|]. right. exists j. split; [apply DI; exact Hj|].
      clear - P PD. induction P as [j|j c x P1 P IH]; [constructor|]. eapply pi_more; [apply PD; exact P1|exact IH].
    - intros [<- |(j & Hj & P)]; [exact (ds_self _ _ _ _ _ _ D)|]. apply DI in Hj. destruct P as [j|j c x P1 P].
      + exact (ds_direct _ _ _ _ _ _ D _ Hj).
      + destruct P as [c|c y x P2 P3]; [|exfalso; exact (Short _ _ _ P1 P2)]. apply (ds_public _ _ _ _ _ _ D j c Hj). apply PD. exact P1.
  Qed.
End Visible.
