(** The errors of the first phase point at what is wrong. *)
From Coq Require Import String Permutation Sorted.
From Verif Require Import Base BaseProofs Value Descr Proto Build VisitProofs EventProofs BuildFrame BuildNames BuildQuiet BuildResolve BuildInv BuildSafe DeclSpec DeclProofs PoolFacts PoolMembers WalkOnce ResolveSpec DefaultSpec ValidSpec AcceptSteps AcceptNames FaultSpec.
From Coq Require Import List.
Local Open Scope list_scope.

(** ** Errors that come in addition *)

Definition adds (Q : err -> Prop) (v v' : vst) : Prop := exists l, v_errs v' = v_errs v ++ l /\ Forall Q l.
Lemma adds_same Q v v' : v_errs v' = v_errs v -> adds Q v v'.
Proof. intros E. exists []. rewrite app_nil_r. auto. Qed.
Lemma adds_refl Q v : adds Q v v.
Proof. apply adds_same. reflexivity. Qed.
Lemma adds_trans Q a b c : adds Q a b -> adds Q b c -> adds Q a c.
Proof.
  intros (l & E & F) (l' & E' & F'). exists (l ++ l'). rewrite E', E, app_assoc. split; [reflexivity|]. apply Forall_app. auto.
Qed.
Lemma adds_imp (Q R : err -> Prop) v v' : (forall e, Q e -> R e) -> adds Q v v' -> adds R v v'.
Proof. intros H (l & E & F). exists l. split; [exact E|]. eapply Forall_impl; [exact H|exact F]. Qed.
Lemma adds_push (Q : err -> Prop) l e v v' : push_err l e v = Ok v' -> Q e -> adds Q v v'.
Proof.
  unfold push_err. destruct (forallb _ l); [|discriminate]. intros H He. apply Ok_inj in H. subst. exists [e]. auto.
Qed.
Lemma adds_all Q v v' : adds Q v v' -> Forall Q (v_errs v) -> Forall Q (v_errs v').
Proof. intros (l & E & F) H. rewrite E. apply Forall_app. auto. Qed.
Lemma adds_fold {A} Q (g : A -> vst -> res vst) l : (forall a v v', In a l -> g a v = Ok v' -> adds Q v v') ->
  forall v v', fold_res g l v = Ok v' -> adds Q v v'.
Proof.
  induction l as [|a l IH]; intros H v v' E; cbn [fold_res] in E; [apply Ok_inj in E; subst; apply adds_refl|].
  apply rbind_ok in E. destruct E as (v1 & E1 & E2). eapply adds_trans; [eapply H; [left; reflexivity|exact E1]|].
  eapply IH; [|exact E2]. intros b w w' Hb. apply H. right. exact Hb.
Qed.
(** the same along a list of events *)
Lemma fold_adds (g : event -> vst -> res vst) (P : list event -> pool -> Prop) Q l :
  (forall done e rest v v', l = done ++ e :: rest -> P done (v_pool v) -> g e v = Ok v' -> P (done ++ [e]) (v_pool v') /\ adds Q v v') ->
  forall v v', P [] (v_pool v) -> fold_res g l v = Ok v' -> P l (v_pool v') /\ adds Q v v'.
Proof.
  intros H v v' H0 E.
  assert (forall todo done v, l = done ++ todo -> P done (v_pool v) -> fold_res g todo v = Ok v' -> P l (v_pool v') /\ adds Q v v') as G.
  2: { exact (G l [] v eq_refl H0 E). }
  clear v H0 E. induction todo as [|e todo IH]; intros done v El Hp E; cbn [fold_res] in E.
  - apply Ok_inj in E. subst v'. rewrite app_nil_r in El. subst done. split; [exact Hp|apply adds_refl].
  - apply rbind_ok in E. destruct E as (v1 & E1 & E2). destruct (H _ _ _ _ _ El Hp E1) as [P1 A1].
    destruct (IH (done ++ [e]) v1) as [P2 A2]; [rewrite <- app_assoc; exact El|exact P1|exact E2|].
    split; [exact P2|]. eapply adds_trans; eassumption.
Qed.

Lemma fold_snoc {A S} (g : A -> S -> res S) l a : forall s t u, fold_res g l s = Ok t -> g a t = Ok u -> fold_res g (l ++ [a]) s = Ok u.
Proof.
  induction l as [|b l IH]; intros s t u H1 H2; cbn [app fold_res] in *.
  - apply Ok_inj in H1. subst t. rewrite H2. reflexivity.
  - apply rbind_ok in H1. destruct H1 as (w & W1 & W2). rewrite W1. cbn [rbind]. exact (IH _ _ _ W2 H2).
Qed.
Lemma add_name_adds f n path k v v' : add_name f n path k v = Ok v' ->
  adds (fun e => e = at_spot (f, path) (ErrDupName n) /\ exists d, assoc_s n (p_names (v_pool v)) = Some d /\ is_package k && is_package (d_kind d) = false) v v'.
Proof.
  unfold add_name. destruct (assoc_s n (p_names (v_pool v))) as [d|] eqn:A.
  - destruct (_ && _) eqn:B; intros H; [apply Ok_inj in H; subst; apply adds_refl|]. eapply adds_push; [exact H|]. eauto.
  - intros H. apply Ok_inj in H. subst v'. apply adds_same. reflexivity.
Qed.

Lemma camel_adds f path fds : forall done seen rest v v', fds = done ++ rest -> (forall s, In s seen -> exists x, In x done /\ to_lower_without_underscores (fp_name x) = s) ->
  check_camel (f, path) (length done) seen rest v = Ok v' ->
  adds (fun e => exists i j x y, (i < j)%nat /\ nth_error fds i = Some x /\ nth_error fds j = Some y /\
    to_lower_without_underscores (fp_name x) = to_lower_without_underscores (fp_name y) /\ e = at_spot (f, path ++ [2; Z.of_nat j; 1]%Z) ErrCamel) v v'.
Proof.
  intros done seen rest. revert done seen. induction rest as [|y rest IH]; intros done seen v v' E Hs H; cbn [check_camel] in H; [apply Ok_inj in H; subst; apply adds_refl|].
  assert (fds = (done ++ [y]) ++ rest) as E' by (rewrite <- app_assoc; exact E).
  assert (Datatypes.S (length done) = length (done ++ [y])) as El by (rewrite app_length; cbn; lia). rewrite El in H.
  destruct (existsb (bytes_eqb (to_lower_without_underscores (fp_name y))) seen) eqn:B.
  - apply rbind_ok in H. destruct H as (v1 & H1 & H). eapply adds_trans.
    + eapply adds_push; [exact H1|]. apply existsb_exists in B. destruct B as (s & Hin & B). apply bytes_eqb_eq in B.
      destruct (Hs _ Hin) as (x & Hx & Ex). apply In_nth_error in Hx. destruct Hx as [i Hi].
      assert (i < length done)%nat as Li by (apply nth_error_Some; congruence).
      exists i, (length done), x, y. split; [exact Li|]. split; [rewrite E, nth_error_app1 by exact Li; exact Hi|].
      split; [rewrite E, nth_error_app2, Nat.sub_diag by lia; reflexivity|]. split; [congruence|reflexivity].
    + eapply IH; [exact E'| |exact H]. intros s' Hin'. destruct (Hs _ Hin') as (x' & A & B'). exists x'. split; [apply in_or_app; left; exact A|exact B'].
  - eapply IH; [exact E'| |exact H]. intros s' [<-|Hin'].
    + exists y. split; [apply in_or_app; right; left; reflexivity|reflexivity].
    + destruct (Hs _ Hin') as (x' & A & B'). exists x'. split; [apply in_or_app; left; exact A|exact B'].
Qed.

Section Names.
  Context (X : externs) (p : pool) (I : Inv X p) (fs : list file) (Hu : unknown_files p fs).
  Let o := offsets_of p.
  Let evs := visit o fs.
  Let all := pool_events p ++ evs.
  Let files := raws p ++ fs.

  (** what the tables hold, errors or not *)
  Definition known (done : list event) (n : str) (d : def) : Prop :=
    (d_kind d = DPackage /\ exists path i f, In (EvFile path i f) (pool_events p ++ done) /\ package_prefix f n) \/
    (d_kind d <> DPackage /\ exists e it, In e (pool_events p ++ done) /\ ev_item e = Some it /\ ev_full e = n).
  Record NP (done : list event) (pa : pool) : Prop := {
    np_names : forall n d, In (n, d) (p_names pa) -> known done n d;
    np_files : forall path i f, In (EvFile path i f) done -> exists g, nth_error (p_files pa) i = Some g /\ file_syntax f = Some (fi_syntax g);
    np_fnames : forall n i, In (n, i) (p_file_names pa) -> In (n, i) (p_file_names p) \/ exists path j f, In (EvFile path j f) done /\ fl_name f = n
  }.
  Lemma known_more done e n d : known done n d -> known (done ++ [e]) n d.
  Proof.
    unfold known. rewrite app_assoc. intros [(K & path & i & f & A & B)|(K & x & it & A & B)].
    - left. split; [exact K|]. exists path, i, f. split; [apply in_or_app; left; exact A|exact B].
    - right. split; [exact K|]. exists x, it. split; [apply in_or_app; left; exact A|exact B].
  Qed.

  Definition Q1 : err -> Prop := points_at files (length (raws p)) (name_fault files) (file_fault fs).

  Section Step.
    Context (done : list event) (e : event) (rest : list event) (Hl : evs = done ++ e :: rest).

    Lemma known_thing n d : known done n d -> d_kind d <> DPackage ->
      exists x it, In x (pool_events p ++ done) /\ thing files (ev_file_of x) (ev_path x) n it /\ place x <> place e.
    Proof.
      intros [(K & _)|(_ & x & it & A & B & <-)] N; [contradiction|]. exists x, it. split; [exact A|].
      assert (In x all) as Ha by (eapply sofar_all; [exact Hl|exact A]).
      split; [exact (event_thing X p I fs _ _ Ha B)|]. exact (here_apart X p I fs done e rest Hl x A).
    Qed.
    Lemma known_package n d : known done n d -> d_kind d = DPackage -> exists g, In g files /\ package_prefix g n.
    Proof.
      intros [(_ & path & i & f & A & B)|(K & _)] N; [|contradiction]. exists f. split; [|exact B].
      eapply file_in_all; [exact I|]. eapply sofar_all; [exact Hl|exact A].
    Qed.

    (** a declaration whose name is taken *)
    Lemma item_name_adds it v v' : ev_item e = Some it -> NP done (v_pool v) ->
      add_name (ev_file_of e) (ev_full e) (ev_path e ++ [1%Z]) (ev_kind e) v = Ok v' -> adds Q1 v v'.
    Proof.
      intros Ei HN H. apply add_name_adds in H. revert H. apply adds_imp. intros er (-> & d & A & B).
      pose proof (np_names _ _ HN _ _ (assoc_s_In _ _ _ A)) as Kn.
      assert (In e evs) as He by (eapply here_new; exact Hl).
      destruct (event_new p fs e it He Ei) as (k & f & E1 & E2 & E3). cbn [of_file offsets_of] in E1. rewrite <- (raws_len p) in E1.
      unfold Q1, points_at. cbn [at_spot er_at er_what]. exists f. split; [lia|].
      split; [unfold files; rewrite E1, nth_error_app2 by lia; replace (length (raws p) + k - length (raws p))%nat with k by lia; exact E2|].
      apply nf_name with it; [exact E3|]. unfold taken.
      assert (d_kind d = DPackage \/ d_kind d <> DPackage) as [K|K] by (destruct (d_kind d); auto; right; discriminate).
      - right. eapply known_package; eassumption.
      - left. destruct (known_thing _ _ Kn K) as (x & it' & _ & T & Ne). do 3 eexists. split; [exact T|exact Ne].
    Qed.
    Lemma item_name_known it v v' : ev_item e = Some it -> NP done (v_pool v) ->
      add_name (ev_file_of e) (ev_full e) (ev_path e ++ [1%Z]) (ev_kind e) v = Ok v' ->
      (forall n d, In (n, d) (p_names (v_pool v')) -> known (done ++ [e]) n d) /\
      p_files (v_pool v') = p_files (v_pool v) /\ p_file_names (v_pool v') = p_file_names (v_pool v) /\
      p_messages (v_pool v') = p_messages (v_pool v) /\ p_enums (v_pool v') = p_enums (v_pool v).
    Proof.
      intros Ei HN H. apply add_name_pool in H. destruct H as [->|(_ & _ & ->)].
      - split; [|auto]. intros n d Hin. apply known_more. exact (np_names _ _ HN _ _ Hin).
      - split; [|auto]. intros n d [Hin|Hin]; [|apply known_more; exact (np_names _ _ HN _ _ Hin)].
        inversion Hin; subst. right. split; [cbn; destruct e; discriminate|]. exists e, it. rewrite !in_app_iff. cbn. auto.
    Qed.
  End Step.

  Lemma NP_item done e pa : NP done pa -> (forall path i f, e <> EvFile path i f) -> forall pb,
    (forall n d, In (n, d) (p_names pb) -> known (done ++ [e]) n d) -> p_files pb = p_files pa -> p_file_names pb = p_file_names pa -> NP (done ++ [e]) pb.
  Proof.
    intros H Nf pb A B C. constructor; [exact A| |].
    - intros path i f Hin. apply in_app_or in Hin. destruct Hin as [Hin|[Hin|[]]]; [|exfalso; exact (Nf _ _ _ Hin)].
      rewrite B. exact (np_files _ _ H _ _ _ Hin).
    - intros n i Hin. rewrite C in Hin. destruct (np_fnames _ _ H _ _ Hin) as [Q|(path & j & f & Q & R)]; [left; exact Q|].
      right. exists path, j, f. split; [apply in_or_app; left; exact Q|exact R].
  Qed.

  Lemma pkg_adds done path i f rest : evs = done ++ EvFile path i f :: rest -> forall l v v',
    (forall n, In n l -> package_prefix f n) ->
    (forall n d, In (n, d) (p_names (v_pool v)) -> known (done ++ [EvFile path i f]) n d) ->
    fold_res (fun pre => add_name i pre (path ++ [2%Z]) DPackage) l v = Ok v' ->
    (forall n d, In (n, d) (p_names (v_pool v')) -> known (done ++ [EvFile path i f]) n d) /\ adds Q1 v v' /\
    p_files (v_pool v') = p_files (v_pool v) /\ p_file_names (v_pool v') = p_file_names (v_pool v).
  Proof.
    intros Hl. set (e := EvFile path i f) in *.
    assert (In e evs) as He by (eapply here_new; exact Hl).
    assert (In e all) as Ha by (apply in_or_app; right; exact He).
    pose proof (proj1 (file_all X p I fs path i f) Ha) as [-> Hf]. fold files in Hf.
    destruct (event_file p fs e He) as (k & f' & E1 & _ & _). cbn [ev_file_of e of_file offsets_of] in E1. rewrite <- (raws_len p) in E1.
    induction l as [|n l IH]; intros v v' Hn HK H; cbn [fold_res] in H; [apply Ok_inj in H; subst; split; [exact HK|]; split; [apply adds_refl|auto]|].
    apply rbind_ok in H. destruct H as (v1 & H1 & H).
    assert (package_prefix f n) as Pn by (apply Hn; left; reflexivity).
    assert ((forall n d, In (n, d) (p_names (v_pool v1)) -> known (done ++ [e]) n d) /\ p_files (v_pool v1) = p_files (v_pool v) /\ p_file_names (v_pool v1) = p_file_names (v_pool v)) as (K1 & F1 & N1).
    { pose proof H1 as H2. apply add_name_pool in H2. destruct H2 as [->|(_ & _ & ->)]; [auto|]. split; [|auto].
      intros n' d' [Hin|Hin]; [|exact (HK _ _ Hin)]. injection Hin as <- <-. left. split; [reflexivity|].
      exists [], i, f. split; [rewrite !in_app_iff; cbn; auto|exact Pn]. }
    assert (adds Q1 v v1) as A1.
    { apply add_name_adds in H1. revert H1. apply adds_imp. intros er (-> & d & A & B). cbn [is_package andb] in B.
      unfold Q1, points_at. cbn [at_spot er_at er_what app]. exists f. split; [lia|]. split; [exact Hf|].
      destruct (HK _ _ (assoc_s_In _ _ _ A)) as [(K & _)|(K & x & it & X1 & X2 & X3)]; [rewrite K in B; discriminate|].
      assert (In x all) as Xa.
      { unfold all. rewrite Hl. rewrite !in_app_iff in X1 |- *. cbn in X1 |- *. tauto. }
      pose proof (event_thing X p I fs _ _ Xa X2) as T. rewrite X3 in T. eapply nf_package; [exact Pn|exact T]. }
    destruct (IH v1 v') as (K2 & A2 & F2 & N2); [intros n' Hn'; apply Hn; right; exact Hn'|exact K1|exact H|].
    split; [exact K2|]. split; [eapply adds_trans; eassumption|]. split; congruence.
  Qed.
  Lemma put_in {A} k (a : A) l : forall k' a', In (k', a') (assoc_put k a l) -> In (k', a') l \/ k' = k.
  Proof.
    induction l as [|[k0 a0] l IH]; cbn [assoc_put]; intros k' a' H; [destruct H as [H|[]]; inversion H; auto|].
    destruct (bytes_eqb k k0) eqn:B; cbn in H.
    - destruct H as [H|H]; [inversion H; subst; apply bytes_eqb_eq in B; subst; auto|left; right; exact H].
    - destruct H as [H|H]; [left; left; exact H|]. destruct (IH _ _ H); [left; right; assumption|auto].
  Qed.

  Lemma names_adds done e rest v v' : evs = done ++ e :: rest -> NP done (v_pool v) -> names_step e v = Ok v' ->
    NP (done ++ [e]) (v_pool v') /\ adds Q1 v v'.
  Proof.
    intros Hl HN H.
    pose proof (fun it => item_name_adds done e rest Hl it v) as NA. pose proof (fun it => item_name_known done e rest Hl it v) as NK.
    assert (In e evs) as He by (eapply here_new; exact Hl). pose proof (event_new p fs e) as EN.
    assert (scoped o done /\ scoped1 (adv o done) e) as [Sd Se].
    { pose proof (visit_scoped o fs) as Sc. fold evs in Sc. rewrite Hl in Sc. apply scoped_app in Sc. destruct Sc as [S1 [S2 _]]. auto. }
    assert (forall k f, (length (p_files p) + k)%nat = ev_file_of e -> nth_error fs k = Some f -> nth_error files (ev_file_of e) = Some f /\ (length (raws p) <= ev_file_of e)%nat) as NF.
    { intros k f E1 E2. rewrite <- (raws_len p) in E1. split; [|lia]. unfold files. rewrite <- E1, nth_error_app2 by lia. replace (length (raws p) + k - length (raws p))%nat with k by lia. exact E2. }
    assert (forall it, ev_item e = Some it -> exists f, nth_error files (ev_file_of e) = Some f /\ (length (raws p) <= ev_file_of e)%nat /\
              declares_name f (ev_path e) (ev_full e) it /\ In (EvFile [] (ev_file_of e) f) done) as EF.
    { intros it Ei. destruct (EN it He Ei) as (k & f & E1 & E2 & E3). cbn [of_file offsets_of] in E1. destruct (NF k f (eq_sym E1) E2) as [A B].
      exists f. split; [exact A|]. split; [exact B|]. split; [exact E3|].
      assert (S (ev_file_of e) = of_file (adv o done)) as Lt by (destruct e; try discriminate; cbn in Se |- *; tauto).
      destruct (file_covered done o (ev_file_of e) Sd) as (path & f' & Hin).
      { unfold o at 1. cbn [of_file offsets_of]. rewrite <- (raws_len p). lia. }
      assert (In (EvFile path (ev_file_of e) f') all) as Ha by (apply in_or_app; right; rewrite Hl; apply in_or_app; left; exact Hin).
      apply (file_all X p I fs) in Ha. destruct Ha as [-> Ha]. fold files in Ha. rewrite A in Ha. apply Some_inj in Ha. subst f'. exact Hin. }
    destruct e as [path i f|path full f parent i m|path full f m i fd|path full f m i n|path full f i s|path full f s i m|path full f parent i en|path full f en i x|path full f parent i fd];
      cbn [names_step ev_file_of ev_full ev_path ev_kind ev_item] in H, NA, NK, EF.
    - (* file *)
      cbn in Se. subst i.
      unfold names_file in H. apply rbind_ok in H. destruct H as (v1 & A & H). apply assert_ok in A. destruct A as [-> Hlen]. apply Nat.eqb_eq in Hlen.
      destruct (file_syntax f) as [sy|] eqn:Sy.
      2: { exfalso. unfold push_err in H. destruct (forallb _ _) eqn:B; [|discriminate]. cbn in B. unfold label_ok in B. rewrite andb_true_r in B.
           apply Nat.ltb_lt in B. lia. }
      cbv zeta in H. apply rbind_ok in H. destruct H as (v2 & H2 & H).
      set (i := of_file (adv o done)) in *. set (e := EvFile path i f) in *.
      assert (path = [] /\ nth_error files i = Some f) as [-> Hf].
      { apply (file_all X p I fs path i f). apply in_or_app. right. exact He. }
      assert (adds Q1 v v2) as A2.
      { destruct (assoc_s (fl_name f) (p_file_names (v_pool v))) as [j|] eqn:As; [|apply Ok_inj in H2; subst v2; apply adds_same; reflexivity].
        refine (adds_trans _ _ _ _ (adds_same _ _ _ eq_refl) (adds_push Q1 _ _ _ _ H2 _)).
        unfold Q1, points_at. cbn [nowhere er_at er_what].
        destruct (event_file p fs e He) as (k & f' & E1 & E2 & _). cbn [ev_file_of e of_file offsets_of] in E1.
        destruct (np_fnames _ _ HN _ _ (assoc_s_In _ _ _ As)) as [Q|(path' & j' & f0 & Q & R)].
        - exfalso. assert (nth_error files i = Some f') as Hf' by exact (proj1 (NF k f' (eq_sym E1) E2)).
          rewrite Hf in Hf'. apply Some_inj in Hf'. subst f'. unfold unknown_files in Hu. rewrite Forall_forall in Hu.
          specialize (Hu f (nth_error_In _ _ E2)). apply assoc_s_None in Hu. apply Hu. apply in_map_iff. exists (fl_name f, j). auto.
        - assert (In (EvFile path' j' f0) evs) as Q' by (rewrite Hl; apply in_or_app; left; exact Q).
          destruct (event_file p fs _ Q') as (k0 & f0' & F1 & F2 & _). cbn [ev_file_of of_file offsets_of] in F1.
          pose proof (file_lt _ _ _ Sd Q) as Lt. cbn in Lt. fold i in Lt.
          assert (nth_error files i = Some f') as Hf' by exact (proj1 (NF k f' (eq_sym E1) E2)).
          rewrite Hf in Hf'. apply Some_inj in Hf'. subst f'.
          assert (nth_error files j' = Some f0) as Hj.
          { apply (file_all X p I fs path' j' f0). apply in_or_app. right. exact Q'. }
          assert (f0' = f0) as ->.
          { unfold files in Hj. rewrite F1, <- (raws_len p), nth_error_app2 in Hj by lia. replace (length (raws p) + k0 - length (raws p))%nat with k0 in Hj by lia. congruence. }
          apply ff_name with (i := k0) (j := k) (f := f0); [lia|exact F2|exact E2|exact R]. }
      match type of H2 with (match ?a with Some _ => push_err _ _ ?w | None => _ end) = _ => assert (v_pool v2 = v_pool w) as P2 end.
      { destruct (assoc_s _ _); [exact (push_err_pool _ _ _ _ H2)|apply Ok_inj in H2; subst v2; reflexivity]. }
      match type of H with context [on_pool ?g v2] => set (v3 := on_pool g v2) in H end.
      assert (adds Q1 v v3) as A3 by (eapply adds_trans; [exact A2|apply adds_same; reflexivity]).
      assert (p_names (v_pool v3) = p_names (v_pool v) /\ p_files (v_pool v3) = p_files (v_pool v) ++ [FileI sy f [] []] /\
              p_file_names (v_pool v3) = assoc_put (fl_name f) i (p_file_names (v_pool v))) as (R1 & R2 & R3) by (cbn; rewrite P2; auto).
      assert (forall w, (forall n d, In (n, d) (p_names (v_pool w)) -> known (done ++ [e]) n d) -> p_files (v_pool w) = p_files (v_pool v3) ->
                p_file_names (v_pool w) = p_file_names (v_pool v3) -> NP (done ++ [e]) (v_pool w)) as Fin.
      { intros w W1 W2 W3. constructor; [exact W1| |].
        - intros path' i' f' Hin. rewrite W2, R2. apply in_app_or in Hin. destruct Hin as [Hin|[Hin|[]]].
          + destruct (np_files _ _ HN _ _ _ Hin) as (g & G1 & G2). exists g. split; [|exact G2]. rewrite nth_error_app1 by (apply nth_error_Some; congruence). exact G1.
          + injection Hin as <- <- <-. rewrite <- Hlen, nth_error_app2, Nat.sub_diag by lia. eexists. split; [reflexivity|exact Sy].
        - intros n' i' Hin. rewrite W3, R3 in Hin. apply put_in in Hin. destruct Hin as [Hin| ->].
          + destruct (np_fnames _ _ HN _ _ Hin) as [Q|(path' & j & f' & Q & R)]; [left; exact Q|]. right. exists path', j, f'. split; [apply in_or_app; left; exact Q|exact R].
          + right. exists [], i, f. split; [apply in_or_app; right; left; reflexivity|reflexivity]. }
      assert (forall n d, In (n, d) (p_names (v_pool v3)) -> known (done ++ [e]) n d) as K3.
      { intros n d Hin. rewrite R1 in Hin. apply known_more. exact (np_names _ _ HN _ _ Hin). }
      destruct (fl_package f) as [|c pkg] eqn:Pk; [apply Ok_inj in H; subst v'; split; [apply Fin; auto|exact A3]|].
      apply rbind_ok in H. destruct H as (v4 & H4 & H5).
      assert (fold_res (fun pre => add_name i pre ([] ++ [2%Z]) DPackage) (before_dots [] (c :: pkg) ++ [c :: pkg]) v3 = Ok v') as H6.
      { apply (fold_snoc _ _ _ _ _ _ H4 H5). }
      assert (forall n, In n (before_dots [] (c :: pkg) ++ [c :: pkg]) -> package_prefix f n) as PP.
      { intros n Hin. apply pkg_prefix. unfold pkg_prefixes. rewrite Pk. exact Hin. }
      destruct (pkg_adds done [] i f rest Hl _ v3 v' PP K3 H6) as (K6 & A6 & F6 & N6).
      split; [apply Fin; assumption|]. eapply adds_trans; eassumption.
    - (* message *)
      unfold names_message in H. apply rbind_ok in H. destruct H as (v1 & H1 & H). apply rbind_ok in H. destruct H as (v2 & A & H). apply assert_ok in A. destruct A as [-> _].
      pose proof (NA _ v1 eq_refl HN H1) as A1. destruct (NK _ v1 eq_refl HN H1) as (K1 & F1 & N1 & _ & _).
      cbv zeta in H. apply rbind_ok in H. destruct H as (fi & Hfi & H). apply at_ok in Hfi.
      match type of H with context [on_pool ?g v1] => set (v2 := on_pool g v1) in * end.
      assert (NP (done ++ [EvMessage path full f parent i m]) (v_pool v2)) as N2 by (eapply NP_item; [exact HN|discriminate|exact K1|exact F1|exact N1]).
      assert (adds Q1 v v2) as A2 by (eapply adds_trans; [exact A1|apply adds_same; reflexivity]).
      destruct (fi_syntax fi) eqn:Sy; [apply Ok_inj in H; subst v'; auto|].
      split; [rewrite (check_camel_pool _ _ _ _ _ _ H); exact N2|]. eapply adds_trans; [exact A2|].
      pose proof (camel_adds f path (dp_fields m) [] [] (dp_fields m) v2 v' eq_refl (fun s (Hs : In s []) => match Hs with end) H) as C.
      revert C. apply adds_imp. intros er (a & b & x & y & Hab & Hx & Hy & Exy & ->).
      destruct (EF _ eq_refl) as (fl & G1 & G2 & G3 & G4). cbn [ev_file_of ev_path ev_full] in *. unfold Q1, points_at. cbn [at_spot er_at er_what]. exists fl. split; [exact G2|]. split; [exact G1|].
      apply message_declared in G3. destruct G3 as (scope & G3 & _).
      destruct (np_files _ _ HN _ _ _ G4) as (g & S1 & S2). cbn in Hfi. rewrite F1 in Hfi. assert (g = fi) by congruence. subst g. rewrite Sy in S2.
      eapply nf_fields; [exact G3|apply syntax_file; exact S2|exact Hab|exact Hx|exact Hy|]. rewrite <- !squeezed_eq. exact Exy.
    - destruct (NK _ v' eq_refl HN H) as (K1 & F1 & N1 & _ & _). split; [eapply NP_item; [exact HN|discriminate|exact K1|exact F1|exact N1]|exact (NA _ v' eq_refl HN H)].
    - unfold names_oneof in H. apply rbind_ok in H. destruct H as (v1 & H1 & H). apply rbind_ok in H. destruct H as (mi & _ & H). apply rbind_ok in H. destruct H as (v2 & A & H).
      apply assert_ok in A. destruct A as [-> _]. apply Ok_inj in H. subst v'.
      destruct (NK _ v1 eq_refl HN H1) as (K1 & F1 & N1 & _ & _). split; [eapply NP_item; [exact HN|discriminate|exact K1|exact F1|exact N1]|].
      eapply adds_trans; [exact (NA _ v1 eq_refl HN H1)|apply adds_same; reflexivity].
    - destruct (NK _ v' eq_refl HN H) as (K1 & F1 & N1 & _ & _). split; [eapply NP_item; [exact HN|discriminate|exact K1|exact F1|exact N1]|exact (NA _ v' eq_refl HN H)].
    - destruct (NK _ v' eq_refl HN H) as (K1 & F1 & N1 & _ & _). split; [eapply NP_item; [exact HN|discriminate|exact K1|exact F1|exact N1]|exact (NA _ v' eq_refl HN H)].
    - (* enum *)
      unfold names_enum in H. apply rbind_ok in H. destruct H as (v1 & H1 & H). apply rbind_ok in H. destruct H as (v2 & H2 & H). apply rbind_ok in H. destruct H as (v3 & A & H). apply assert_ok in A. destruct A as [-> _].
      pose proof (NA _ v1 eq_refl HN H1) as A1. destruct (NK _ v1 eq_refl HN H1) as (K1 & F1 & N1 & _ & _).
      apply Ok_inj in H. subst v'.
      destruct (EF _ eq_refl) as (fl & G1 & G2 & G3 & G4). cbn [ev_file_of ev_path ev_full] in *. apply enum_declared in G3. destruct G3 as (scope & G3 & _).
      assert (adds Q1 v1 v2 /\ v_pool v2 = v_pool v1) as [A2 P2].
      { destruct (ep_values en) as [|x xs] eqn:Ev.
        - split; [|exact (push_err_pool _ _ _ _ H2)]. eapply adds_push; [exact H2|]. unfold Q1, points_at. cbn [at_spot er_at er_what].
          exists fl. split; [exact G2|]. split; [exact G1|]. eapply nf_empty; eassumption.
        - apply rbind_ok in H2. destruct H2 as (fi & Hfi & H2). apply at_ok in Hfi.
          destruct (fi_syntax fi) eqn:Sy; [apply Ok_inj in H2; subst; split; [apply adds_refl|reflexivity]|].
          destruct (Z.eqb_spec (snd x) 0); [apply Ok_inj in H2; subst; split; [apply adds_refl|reflexivity]|].
          split; [|exact (push_err_pool _ _ _ _ H2)]. eapply adds_push; [exact H2|]. unfold Q1, points_at. cbn [at_spot er_at er_what].
          exists fl. split; [exact G2|]. split; [exact G1|].
          destruct (np_files _ _ HN _ _ _ G4) as (g & S1 & S2). rewrite F1 in Hfi. assert (g = fi) by congruence. subst g. rewrite Sy in S2.
          eapply nf_first; [exact G3|apply syntax_file; exact S2|exact Ev|assumption]. }
      split; [|eapply adds_trans; [exact A1|]; eapply adds_trans; [exact A2|apply adds_same; reflexivity]].
      eapply NP_item; [exact HN|discriminate| | |]; cbn; rewrite P2; assumption.
    - unfold names_enum_value in H. apply rbind_ok in H. destruct H as (v1 & H1 & H). apply rbind_ok in H. destruct H as (mi & _ & H). apply rbind_ok in H. destruct H as (v2 & A & H).
      apply assert_ok in A. destruct A as [-> _]. apply Ok_inj in H. subst v'.
      destruct (NK _ v1 eq_refl HN H1) as (K1 & F1 & N1 & _ & _). split; [eapply NP_item; [exact HN|discriminate|exact K1|exact F1|exact N1]|].
      eapply adds_trans; [exact (NA _ v1 eq_refl HN H1)|apply adds_same; reflexivity].
    - destruct (NK _ v' eq_refl HN H) as (K1 & F1 & N1 & _ & _). split; [eapply NP_item; [exact HN|discriminate|exact K1|exact F1|exact N1]|exact (NA _ v' eq_refl HN H)].
  Qed.

  Theorem names_faults v : fold_res names_step evs (V p []) = Ok v -> Forall Q1 (v_errs v).
  Proof.
    intros H. destruct (fold_adds names_step NP Q1 evs) with (v := V p []) (v' := v) as [_ A]; [|constructor| exact H|].
    - intros. eapply names_adds; eassumption.
    - cbn [v_pool]. intros n d Hin. unfold known. rewrite app_nil_r.
      assert (d_kind d = DPackage \/ d_kind d <> DPackage) as [K|K] by (destruct (d_kind d); auto; right; discriminate).
      + left. split; [exact K|]. destruct (iv_pkg1 _ _ I _ _ Hin K) as (path & i & f & A & B & _). exists path, i, f. split; [exact A|apply pkg_prefix; exact B].
      + right. split; [exact K|].
        assert (In (n, d) (filter nonpkg (p_names p))) as Hf.
        { apply filter_In. split; [exact Hin|]. unfold nonpkg. cbn. destruct (d_kind d); try reflexivity. contradiction. }
        rewrite (iv_defs _ _ I) in Hf. apply in_rev in Hf. apply in_flat_map in Hf. destruct Hf as [e [He Hd]].
        destruct (ev_item e) as [it|] eqn:Ei; [|destruct e; try discriminate; destruct Hd].
        rewrite (ev_defs_item _ _ Ei) in Hd. destruct Hd as [Hd|[]]. exists e, it. inversion Hd; subst. auto.
    - intros path i f [].
    - intros n i Hin. left. exact Hin.
    - apply (adds_all _ _ _ A). constructor.
  Qed.
End Names.
