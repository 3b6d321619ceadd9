(** The errors of the second phase point at what is wrong. *)
From Coq Require Import String Permutation Sorted.
From Verif Require Import Base BaseProofs Value Descr Proto Build VisitProofs EventProofs BuildFrame BuildNames BuildQuiet BuildResolve BuildInv BuildSafe DeclSpec DeclProofs PoolFacts PoolMembers WalkOnce ResolveSpec ResolveProofs DefaultSpec Prop_Resolve Prop_Defaults OptProofs ValidSpec AcceptSteps AcceptNames AcceptRefs AcceptResolve AcceptVisible FaultSpec FaultNames.
From Coq Require Import List.
Local Open Scope list_scope.

(** ** Single calls *)

Lemma adds_opt_push {A} (Q : err -> Prop) (o : option A) l e v v' :
  match o with Some _ => push_err l e v | None => Ok v end = Ok v' -> (forall a, o = Some a -> Q e) -> adds Q v v' /\ v_pool v' = v_pool v.
Proof.
  destruct o as [a|]; intros H He.
  - split; [eapply adds_push; [exact H|eauto]|exact (push_err_pool _ _ _ _ H)].
  - apply Ok_inj in H. subst. split; [apply adds_refl|reflexivity].
Qed.
Lemma in_range_iff r z : in_range r z = true <-> (fst r <= z < snd r)%Z.
Proof. unfold in_range. rewrite andb_true_iff, Z.leb_le, Z.ltb_lt. reflexivity. Qed.
Lemma legal_iff z : legal_number z = true <-> (1 <= z <= 536870911)%Z /\ ~ (19000 <= z <= 19999)%Z.
Proof. unfold legal_number. rewrite andb_true_iff, negb_true_iff, <- not_true_iff_false, !in_range_iff. cbn [fst snd]. lia. Qed.
Lemma in_ranges_iff z l : existsb (fun r => in_range r z) l = true <-> in_ranges z l.
Proof.
  rewrite existsb_exists. split.
  - intros ([lo hi] & A & B). apply in_range_iff in B. exists lo, hi. auto.
  - intros (lo & hi & A & B). exists (lo, hi). split; [exact A|]. apply in_range_iff. exact B.
Qed.

Lemma import_adds (Q : err -> Prop) n z v v' : check_import_index n z v = Ok v' ->
  (~ (0 <= z < Z.of_nat n)%Z -> Q (nowhere ErrImportIndex)) -> adds Q v v'.
Proof.
  unfold check_import_index. destruct (_ && _) eqn:B; intros H Hq; [apply Ok_inj in H; subst; apply adds_refl|].
  eapply adds_push; [exact H|]. apply Hq. intros Q0. apply not_true_iff_false in B. apply B. rewrite andb_true_iff, Z.leb_le, Nat.ltb_lt. lia.
Qed.

Section Calls.
  Context (X : externs).

  Lemma parse_default_adds k d w v x v' : parse_default X k d w v = Ok (x, v') ->
    adds (fun e => exists s, d = Some s /\ e = at_spot (inside_spot w [7%Z]) (ErrDefault s) /\
      forall r, ~ default_spec X (p_enums (v_pool v)) k d r) v v'.
  Proof.
    unfold parse_default. destruct d as [s|]; intros H; [|apply Ok_inj in H; injection H as _ <-; apply adds_refl].
    assert (forall o : option value, parse_simple X k s = Ok o ->
      match k with KEnum _ | KMessage _ | KGroup _ => False | _ => True end ->
      match o with Some x => Ok (Some x, v) | None => let! v1 := push_err [fst w] (at_spot (inside_spot w [7%Z]) (ErrDefault s)) v in Ok (None, v1) end = Ok (x, v') ->
      adds (fun e => exists s0, Some s = Some s0 /\ e = at_spot (inside_spot w [7%Z]) (ErrDefault s0) /\
        forall r, ~ default_spec X (p_enums (v_pool v)) k (Some s) r) v v') as S.
    { intros [y|] P K E; [apply Ok_inj in E; injection E as _ <-; apply adds_refl|].
      apply rbind_ok in E. destruct E as (v1 & E1 & E). apply Ok_inj in E. injection E as _ <-. eapply adds_push; [exact E1|].
      exists s. split; [reflexivity|]. split; [reflexivity|]. intros r (y & _ & D). destruct k; try contradiction; rewrite P in D; discriminate. }
    destruct k; try (apply rbind_ok in H; destruct H as (o & H1 & H); refine (S o H1 Logic.I H)).
    all: try (apply rbind_ok in H; destruct H as (v1 & H1 & H); apply Ok_inj in H; injection H as _ <-; eapply adds_push; [exact H1|];
      exists s; split; [reflexivity|]; split; [reflexivity|]; intros r (y & _ & []); fail).
    apply rbind_ok in H. destruct H as (en & He & H). apply at_ok in He.
    destruct (find (fun x0 : enum_value_inner => bytes_eqb (id_name (ev_id x0)) s) (e_values en)) as [y|] eqn:F.
    - apply Ok_inj in H. injection H as _ <-. apply adds_refl.
    - apply rbind_ok in H. destruct H as (v1 & H1 & H). apply Ok_inj in H. injection H as _ <-. eapply adds_push; [exact H1|].
      exists s. split; [reflexivity|]. split; [reflexivity|]. intros r (y & _ & en' & y' & A & B & _). rewrite He in A. apply Some_inj in A. subst en'.
      rewrite F in B. discriminate.
  Qed.
  Lemma default_of_adds k fd w v x v' : default_of X k fd w v = Ok (x, v') ->
    adds (fun e => exists kd s, k = Some kd /\ fp_default fd = Some s /\ e = at_spot (inside_spot w [7%Z]) (ErrDefault s) /\
      forall r, ~ default_spec X (p_enums (v_pool v)) kd (Some s) r) v v'.
  Proof.
    unfold default_of. destruct k as [kd|]; intros H; [|apply Ok_inj in H; injection H as _ <-; apply adds_refl].
    apply parse_default_adds in H. revert H. apply adds_imp. intros e (s & A & B & C). exists kd, s. rewrite A in C. auto.
  Qed.

  Lemma ref_adds scope name f path tag r v d v' fi : resolve_ref scope name f path tag r v = Ok (d, v') -> nth_error (p_files (v_pool v)) f = Some fi ->
    (v' = v /\ exists n d', d = Some d' /\ resolve_name (fi_trans fi) (p_names (v_pool v)) scope name r = RFound n d') \/
    (d = None /\ (forall n d', resolve_name (fi_trans fi) (p_names (v_pool v)) scope name r <> RFound n d') /\
     adds (fun e => exists w, reference_error w /\ e = at_spot (f, path ++ [tag]) w) v v').
  Proof.
    unfold resolve_ref. intros H Hf. apply rbind_ok in H. destruct H as (fi' & Hf' & H). apply at_ok in Hf'.
    assert (fi' = fi) as -> by congruence. clear Hf'. destruct (resolve_name _ _ _ _ _) as [n d'|n d'|n df| |n ?] eqn:R.
    - left. apply rbind_ok in H. destruct H as (? & _ & H). apply Ok_inj in H. injection H as <- <-. split; [reflexivity|]. exists n, d'. auto.
    - right. apply rbind_ok in H. destruct H as (v1 & H1 & H). apply Ok_inj in H. injection H as <- <-. split; [reflexivity|]. split; [discriminate|].
      eapply adds_push; [exact H1|]. eexists. split; [|reflexivity]. constructor.
    - right. apply rbind_ok in H. destruct H as (v1 & H1 & H). apply Ok_inj in H. injection H as <- <-. split; [reflexivity|]. split; [discriminate|].
      eapply adds_push; [exact H1|]. eexists. split; [|reflexivity]. constructor.
    - right. apply rbind_ok in H. destruct H as (v1 & H1 & H). apply Ok_inj in H. injection H as <- <-. split; [reflexivity|]. split; [discriminate|].
      eapply adds_push; [exact H1|]. eexists. split; [|reflexivity]. constructor.
    - right. apply rbind_ok in H. destruct H as (v1 & H1 & H). apply Ok_inj in H. injection H as <- <-. split; [reflexivity|]. split; [discriminate|].
      eapply adds_push; [exact H1|]. eexists. split; [|reflexivity]. constructor.
  Qed.
  Lemma message_adds scope name f path tag v i v' fi : find_message scope name f path tag v = Ok (i, v') -> nth_error (p_files (v_pool v)) f = Some fi ->
    (v' = v /\ exists j, i = Some j /\ message_spec (p_names (v_pool v)) (fi_trans fi) scope name j) \/
    (i = None /\ (forall n d', resolve_name (fi_trans fi) (p_names (v_pool v)) scope name FMessage <> RFound n d') /\
     adds (fun e => exists w, reference_error w /\ e = at_spot (f, path ++ [tag]) w) v v').
  Proof.
    unfold find_message. intros H Hf. apply rbind_ok in H. destruct H as ([d v1] & H1 & H).
    destruct (ref_adds _ _ _ _ _ _ _ _ _ _ H1 Hf) as [(-> & n & d' & -> & R)|(-> & R & A)].
    - left. destruct (d_kind d') eqn:K; try discriminate. apply Ok_inj in H. injection H as <- <-. split; [reflexivity|]. exists i0. split; [reflexivity|]. exists n, d'. auto.
    - right. apply Ok_inj in H. injection H as <- <-. auto.
  Qed.
  Lemma type_adds ty name scope f path v k v' fi : resolve_type ty name scope f path v = Ok (k, v') -> nth_error (p_files (v_pool v)) f = Some fi ->
    (v' = v /\ exists kd, k = Some kd /\ type_spec (p_names (v_pool v)) (fi_trans fi) ty name scope kd) \/
    (k = None /\ name = [] /\ (ty = TGroup \/ ty = TMessage \/ ty = TEnum) /\ adds (fun e => e = at_spot (f, path ++ [6%Z]) ErrMissingType) v v') \/
    (k = None /\ name <> [] /\ (forall n d', resolve_name (fi_trans fi) (p_names (v_pool v)) scope name FFieldType <> RFound n d') /\
     adds (fun e => exists w, reference_error w /\ e = at_spot (f, path ++ [6%Z]) w) v v').
  Proof.
    unfold resolve_type. intros H Hf. destruct name as [|c name].
    - assert (forall kd, Ok (Some kd, v) = Ok (k, v') -> scalar_kind ty = Some kd ->
        v' = v /\ exists kd, k = Some kd /\ type_spec (p_names (v_pool v)) (fi_trans fi) ty [] scope kd) as S.
      { intros kd E K. apply Ok_inj in E. injection E as <- <-. split; [reflexivity|]. exists kd. auto. }
      assert ((let! v1 := push_err [f] (at_spot (f, path ++ [6%Z]) ErrMissingType) v in Ok (None, v1)) = Ok (k, v') ->
        k = None /\ adds (fun e => e = at_spot (f, path ++ [6%Z]) ErrMissingType) v v') as B.
      { intros E. apply rbind_ok in E. destruct E as (v1 & E1 & E). apply Ok_inj in E. injection E as <- <-. split; [reflexivity|].
        eapply adds_push; [exact E1|reflexivity]. }
      destruct ty; try (left; refine (S _ H eq_refl)); right; left; destruct (B H) as [-> A]; auto 6.
    - apply rbind_ok in H. destruct H as ([d v1] & H1 & H).
      destruct (ref_adds _ _ _ _ _ _ _ _ _ _ H1 Hf) as [(-> & n & d' & -> & R)|(-> & R & A)].
      + left. destruct (d_kind d') eqn:K; try discriminate; apply Ok_inj in H; injection H as <- <-; (split; [reflexivity|]); eexists; (split; [reflexivity|]); exists n, d'; (split; [exact R|]); eauto.
      + right. right. apply Ok_inj in H. injection H as <- <-. split; [reflexivity|]. split; [discriminate|]. auto.
  Qed.
End Calls.

(** ** What a file sees *)

Lemma gather_spec fuel q : forall ds t t', gather fuel q ds t = Ok t' ->
  (forall x, In x t -> In x t') /\
  (forall d i, In d ds -> assoc_s d (p_file_names q) = Some i -> In i t' /\ forall y, pub_dep (p_file_names q) (raws q) i y -> In y t') /\
  (forall x, In x t' -> In x t \/ exists d i, In d ds /\ assoc_s d (p_file_names q) = Some i /\ pub_reach (p_file_names q) (raws q) i x).
Proof.
  induction ds as [|d ds IH]; intros t t' H; cbn [gather] in H.
  - apply Ok_inj in H. subst t'. split; [auto|]. split; [intros d i []|auto].
  - destruct (assoc_s d (p_file_names q)) as [i|] eqn:E.
    + apply rbind_ok in H. destruct H as (t1 & A & H). destruct (resolve_public_spec _ _ _ _ _ A) as (A1 & A2 & A3).
      destruct (IH _ _ H) as (B1 & B2 & B3).
      assert (forall x, In x (fst (set_insert i t)) <-> In x t \/ x = i) as Si.
      { intros x. unfold set_insert. destruct (existsb (Nat.eqb i) t) eqn:S; cbn [fst].
        - split; [auto|]. intros [Hx| ->]; [exact Hx|]. apply existsb_exists in S. destruct S as (y & Hy & S). apply Nat.eqb_eq in S. congruence.
        - rewrite in_app_iff. cbn. intuition. }
      split; [intros x Hx; apply B1, A1, Si; auto|]. split.
      * intros d' i' [<-|Hd] Ei; [|exact (B2 _ _ Hd Ei)]. assert (i' = i) as -> by congruence. split; [apply B1, A1, Si; auto|]. intros y Hy. apply B1, A2. exact Hy.
      * intros x Hx. destruct (B3 _ Hx) as [Hx1|(d' & i' & C1 & C2 & C3)].
        -- destruct (A3 _ Hx1) as [Hx2|Hx2].
           ++ apply Si in Hx2. destruct Hx2 as [Hx2| ->]; [auto|]. right. exists d, i. split; [left; reflexivity|]. split; [exact E|constructor].
           ++ right. exists d, i. split; [left; reflexivity|]. auto.
        -- right. exists d', i'. split; [right; exact C1|]. auto.
    + destruct (IH _ _ H) as (B1 & B2 & B3). split; [exact B1|]. split.
      * intros d' i' [<-|Hd] Ei; [congruence|exact (B2 _ _ Hd Ei)].
      * intros x Hx. destruct (B3 _ Hx) as [Hx1|(d' & i' & C1 & C2 & C3)]; [auto|]. right. exists d', i'. split; [right; exact C1|]. auto.
Qed.
Lemma gather_sees X p fs p1 fuel : Inv X p -> unknown_files p fs -> fold_res names_step (visit (offsets_of p) fs) (V p []) = Ok (V p1 []) ->
  (forall a b c, public_import (raws p ++ fs) a b -> ~ public_import (raws p ++ fs) b c) ->
  forall k f t, nth_error (raws p ++ fs) k = Some f -> gather fuel (files_only (raws p ++ fs)) (fl_deps f) [k] = Ok t -> forall x, In x t <-> sees (raws p ++ fs) k x.
Proof.
  intros I Hu H1 Short k f t Hf G x.
  pose proof (p1_file_index X p I fs Hu p1 H1) as FI. pose proof (only_names X p I fs Hu p1 H1) as On. pose proof (only_raws X p I fs Hu p1 H1) as Or.
  rewrite (p1_raws X p I fs Hu p1 H1) in Or. destruct (gather_spec _ _ _ _ _ G) as (G1 & G2 & G3). rewrite <- On, <- Or in G2, G3.
  set (files := raws p ++ fs) in *.
  assert (forall a y, pub_dep (p_file_names p1) files a y <-> public_import files a y) as PD.
  { intros a y. unfold pub_dep, public_import, imports_at. split.
    - intros (g & j & d & Q1 & Q2 & Q3 & Q4). apply FI in Q4. destruct Q4 as (h & Q4 & Q5). exists g, j. split; [exact Q1|]. split; [apply public_in; exact Q3|]. exists g, h, d. auto.
    - intros (g & j & Q1 & Q2 & g' & h & d & Q3 & Q4 & Q5 & Q6). rewrite Q1 in Q3. apply Some_inj in Q3. subst g'.
      exists g, j, d. split; [exact Q1|]. split; [exact Q4|]. split; [apply public_in; exact Q2|]. apply FI. eauto. }
  split.
  - intros Hx. destruct (G3 _ Hx) as [[Hx1|[]]|(d & i & D1 & D2 & D3)]; [left; exact Hx1|]. right. exists i. split.
    + apply In_nth_error in D1. destruct D1 as [j D1]. apply FI in D2. destruct D2 as (g & D2 & D4). exists j, f, g, d. auto.
    + clear - D3 PD. induction D3 as [j|j c x P1 P IH]; [constructor|]. eapply pi_more; [apply PD; exact P1|exact IH].
  - intros [<-|(j & (l & f' & g & d & Q1 & Q2 & Q3 & Q4) & P)]; [apply G1; left; reflexivity|]. rewrite Hf in Q1. apply Some_inj in Q1. subst f'.
    destruct (G2 d j (nth_error_In _ _ Q2)) as [D1 D2]; [apply FI; eauto|]. destruct P as [j|j c x P1 P].
    + exact D1.
    + destruct P as [c|c y x P2 P3]; [|exfalso; exact (Short _ _ _ P1 P2)]. apply D2. apply PD. exact P1.
Qed.

(** ** The second phase *)

Section Uses.
  Context (X : externs) (SO : search_ok X) (p : pool) (I : Inv X p) (fs : list file) (Hu : unknown_files p fs).
  Let o := offsets_of p.
  Let evs := visit o fs.
  Let all := pool_events p ++ evs.
  Context (p1 : pool) (H1 : fold_res names_step evs (V p []) = Ok (V p1 [])) (fuel : nat).
  Let names := fun n => assoc_s n (p_names p1).
  Let files := raws p ++ fs.
  Context (vis : nat -> nat -> Prop)
          (Hvis : forall k f t, nth_error files k = Some f -> gather fuel (files_only files) (fl_deps f) [k] = Ok t -> forall x, In x t <-> vis k x).

  Definition Q2 : err -> Prop :=
    points_at files (length (raws p)) (fun k f => nearly (use_fault X files names vis k f)) (loose_fault X fs).

  (** what the tables of a message and of an enum hold *)
  Record tab_ok (done : list event) (i : nat) (m : message_inner) : Prop := {
    tb_numbers : forall n j, bt_get n (m_numbers m) = Some j -> exists e fd, In e (kids 0 i done) /\ In fd (ev_field e) /\ as_u32 (fp_number fd) = n;
    tb_names : forall n j, In (n, j) (m_names m) -> exists e fd, In e (kids 0 i done) /\ In fd (ev_field e) /\ fp_name fd = n;
    tb_jsons : forall n j, In (n, j) (m_jsons m) -> exists e fd, In e (kids 0 i done) /\ In fd (ev_field e) /\ json_of fd = n
  }.
  Record val_ok (done : list event) (i : nat) (en : enum_inner) : Prop := {
    vl_sorted : StronglySorted num_le (e_numbers en);
    vl_numbers : forall z j, In (z, j) (e_numbers en) -> exists e, In e (kids 3 i done) /\ snd (ev_value e) = z;
    vl_names : forall n j, In (n, j) (e_names en) -> exists e, In e (kids 3 i done) /\ fst (ev_value e) = n
  }.
  Record PR (done : list event) (pa : pool) : Prop := {
    pr_steady : steady p1 pa;
    pr_evals : evals pa = evals p1;
    pr_alias : map e_alias (p_enums pa) = map e_alias (p_enums p1);
    pr_oneofs : map (fun m => length (m_oneofs m)) (p_messages pa) = map (fun m => length (m_oneofs m)) (p_messages p1);
    pr_files : forall path i f, In (EvFile path i f) done -> exists g, nth_error (p_files pa) i = Some g /\ gather fuel (files_only files) (fl_deps f) [i] = Ok (fi_trans g);
    pr_msgs : forall path full f par i dm m, In (EvMessage path full f par i dm) evs -> nth_error (p_messages pa) i = Some m -> tab_ok done i m;
    pr_enums : forall path full f par i ep en, In (EvEnum path full f par i ep) evs -> nth_error (p_enums pa) i = Some en -> val_ok done i en
  }.

  Let HN := p1_NI p fs p1 H1.
  Let HL := p1_later X p I fs Hu p1 H1.
  Let HR : raws p1 = files := p1_raws X p I fs Hu p1 H1.

  Lemma PR_init : PR [] p1.
  Proof.
    constructor; try reflexivity.
    - apply steady_refl.
    - intros path i f [].
    - intros path full f par i dm m He Hm. rewrite (proj1 (ni_msgs _ _ _ _ (ni_nm _ _ _ _ HN) _ _ _ _ _ _ He)) in Hm. apply Some_inj in Hm. subst m.
      constructor; cbn; intros; try contradiction; discriminate.
    - intros path full f par i dm m He Hm. rewrite (proj1 (ni_enums _ _ _ _ (ni_ne _ _ _ _ HN) _ _ _ _ _ _ He)) in Hm. apply Some_inj in Hm. subst m.
      constructor; cbn; intros; try contradiction. constructor.
  Qed.

  Lemma kids_more k i done e x : In x (kids k i done) -> In x (kids k i (done ++ [e])).
  Proof. rewrite kids_app. intros H. apply in_or_app. left. exact H. Qed.
  Lemma tab_more done e i m : tab_ok done i m -> tab_ok (done ++ [e]) i m.
  Proof.
    intros [A B C]. constructor; intros n j H; [destruct (A n j H) as (x & fd & P & Q)|destruct (B n j H) as (x & fd & P & Q)|destruct (C n j H) as (x & fd & P & Q)];
      exists x, fd; (split; [apply kids_more; exact P|exact Q]).
  Qed.
  Lemma val_more done e i m : val_ok done i m -> val_ok (done ++ [e]) i m.
  Proof.
    intros [S A B]. constructor; [exact S| |]; intros n j H; [destruct (A n j H) as (x & P & Q)|destruct (B n j H) as (x & P & Q)];
      exists x; (split; [apply kids_more; exact P|exact Q]).
  Qed.
  (** one step, for the events other than files *)
  Lemma PR_next done e pa pb : PR done pa -> (forall path i f, e <> EvFile path i f) ->
    steady pa pb -> p_files pb = p_files pa -> evals pb = evals pa -> map e_alias (p_enums pb) = map e_alias (p_enums pa) ->
    map (fun m => length (m_oneofs m)) (p_messages pb) = map (fun m => length (m_oneofs m)) (p_messages pa) ->
    (forall i m, nth_error (p_messages pb) i = Some m -> exists m0, nth_error (p_messages pa) i = Some m0 /\ (tab_ok done i m0 -> tab_ok (done ++ [e]) i m)) ->
    (forall i m, nth_error (p_enums pb) i = Some m -> exists m0, nth_error (p_enums pa) i = Some m0 /\ (val_ok done i m0 -> val_ok (done ++ [e]) i m)) ->
    PR (done ++ [e]) pb.
  Proof.
    intros R Nf S F E A O M V. constructor.
    - eapply steady_trans; [exact (pr_steady _ _ R)|exact S].
    - rewrite E. exact (pr_evals _ _ R).
    - rewrite A. exact (pr_alias _ _ R).
    - rewrite O. exact (pr_oneofs _ _ R).
    - intros path i f Hin. apply in_app_or in Hin. destruct Hin as [Hin|[Hin|[]]]; [|exfalso; exact (Nf _ _ _ Hin)]. rewrite F. exact (pr_files _ _ R _ _ _ Hin).
    - intros path full f par i dm m He Hm. destruct (M _ _ Hm) as (m0 & M1 & M2). apply M2. exact (pr_msgs _ _ R _ _ _ _ _ _ _ He M1).
    - intros path full f par i dm m He Hm. destruct (V _ _ Hm) as (m0 & M1 & M2). apply M2. exact (pr_enums _ _ R _ _ _ _ _ _ _ He M1).
  Qed.
  (** nothing but extensions and services changed *)
  Lemma PR_idle done e pa pb : PR done pa -> (forall path i f, e <> EvFile path i f) -> p_names pb = p_names pa -> p_file_names pb = p_file_names pa ->
    p_files pb = p_files pa -> p_messages pb = p_messages pa -> p_enums pb = p_enums pa -> PR (done ++ [e]) pb.
  Proof.
    intros R Nf E1 E2 E3 E4 E5. apply (PR_next done e pa pb R Nf); try assumption.
    - constructor; try assumption; [unfold raws; rewrite E3|unfold mids; rewrite E4|unfold eids; rewrite E5]; reflexivity.
    - unfold evals. rewrite E5. reflexivity.
    - rewrite E5. reflexivity.
    - rewrite E4. reflexivity.
    - intros i m Hm. rewrite E4 in Hm. exists m. split; [exact Hm|apply tab_more].
    - intros i m Hm. rewrite E5 in Hm. exists m. split; [exact Hm|apply val_more].
  Qed.
  (** one message changed *)
  Lemma PR_message done e pa pb j h : PR done pa -> (forall path i f, e <> EvFile path i f) -> p_names pb = p_names pa -> p_file_names pb = p_file_names pa ->
    p_files pb = p_files pa -> p_messages pb = upd j h (p_messages pa) -> p_enums pb = p_enums pa ->
    (forall m, m_id (h m) = m_id m) -> (forall m, length (m_oneofs (h m)) = length (m_oneofs m)) ->
    (forall m, tab_ok done j m -> tab_ok (done ++ [e]) j (h m)) -> PR (done ++ [e]) pb.
  Proof.
    intros R Nf E1 E2 E3 E4 E5 Hi Ho Ht. apply (PR_next done e pa pb R Nf); try assumption.
    - constructor; try assumption; [unfold raws; rewrite E3; reflexivity|unfold mids; rewrite E4; apply map_upd; exact Hi|unfold eids; rewrite E5; reflexivity].
    - unfold evals. rewrite E5. reflexivity.
    - rewrite E5. reflexivity.
    - rewrite E4. apply map_upd. exact Ho.
    - intros i m Hm. rewrite E4, nth_upd in Hm. destruct (Nat.eqb_spec j i) as [->|N].
      + destruct (nth_error (p_messages pa) i) as [m0|]; [|discriminate]. cbn in Hm. apply Some_inj in Hm. subst m. exists m0. split; [reflexivity|apply Ht].
      + exists m. split; [exact Hm|apply tab_more].
    - intros i m Hm. rewrite E5 in Hm. exists m. split; [exact Hm|apply val_more].
  Qed.

  Section Step.
    Context (done : list event) (e : event) (rest : list event) (Hl : evs = done ++ e :: rest).

    Lemma use_in : In e evs.
    Proof. rewrite Hl. apply in_or_app. right. left. reflexivity. Qed.
    Lemma use_all x : In x evs -> In x all.
    Proof. intros H. apply in_or_app. right. exact H. Qed.

    (** the file of a declaration, with what it sees *)
    Lemma use_file it pa : ev_item e = Some it -> PR done pa -> exists f g,
      (length (raws p) <= ev_file_of e)%nat /\ In f fs /\ nth_error files (ev_file_of e) = Some f /\ declares_name f (ev_path e) (ev_full e) it /\
      nth_error (p_files pa) (ev_file_of e) = Some g /\ (forall x, In x (fi_trans g) <-> vis (ev_file_of e) x).
    Proof.
      intros Ei R. destruct (own_file X p I fs p1 done e rest it Hl Ei) as (k & f & E1 & E2 & E3 & E4 & E5).
      destruct (pr_files _ _ R _ _ _ E4) as (g & G1 & G2). exists f, g.
      split; [lia|]. split; [eapply nth_error_In; exact E2|]. split; [exact E3|]. split; [exact E5|]. split; [exact G1|].
      exact (Hvis _ _ _ E3 G2).
    Qed.
    Lemma points f path w : (length (raws p) <= ev_file_of e)%nat -> nth_error files (ev_file_of e) = Some f -> w <> ErrEnumReserved ->
      use_fault X files names vis (ev_file_of e) f path w -> Q2 (at_spot (ev_file_of e, path) w).
    Proof. intros L F N U. exists f. split; [exact L|]. split; [exact F|]. left. auto. Qed.

    (** numbers *)
    Lemma number_adds mp n ff par msg dm fd f path v v' : In (EvMessage mp n ff par msg dm) all -> steady p1 (v_pool v) ->
      check_field_number msg fd (f, path) v = Ok v' ->
      adds (fun er => exists w, er = at_spot (f, path ++ [3%Z]) w /\
        ((w = ErrFieldNumber /\ ~ ((1 <= fp_number fd <= 536870911)%Z /\ ~ (19000 <= fp_number fd <= 19999)%Z)) \/
         (w = ErrReserved /\ in_ranges (fp_number fd) (dp_reserved dm)) \/
         (w = ErrInExtRange /\ fp_extendee fd = None /\ in_ranges (fp_number fd) (dp_ext_ranges dm)) \/
         (w = ErrNotInExtRange /\ fp_extendee fd <> None /\ ~ in_ranges (fp_number fd) (dp_ext_ranges dm)))) v v'.
    Proof.
      intros Hm St H. pose proof (message_id X p I fs p1 HN HL _ _ _ _ _ _ Hm) as Hi.
      pose proof (event_thing X p I fs _ _ Hm eq_refl) as (fl & Hf & D). cbn [ev_file_of ev_path ev_full] in Hf, D.
      apply message_declared in D. destruct D as [scope [M _]]. apply message_at_found in M.
      unfold check_field_number in H. cbn [fst inside_spot snd] in H. apply rbind_ok in H. destruct H as (v1 & A & H).
      assert (v_pool v1 = v_pool v) as P1.
      { destruct (legal_number (fp_number fd)); [apply Ok_inj in A; subst; reflexivity|exact (push_err_pool _ _ _ _ A)]. }
      apply rbind_ok in H. destruct H as (mi & B1 & H). apply at_ok in B1. rewrite P1 in B1.
      apply rbind_ok in H. destruct H as (fi & B2 & H). apply at_ok in B2. rewrite P1 in B2.
      apply rbind_ok in H. destruct H as (dm' & B3 & H).
      assert (m_id mi = mk_id ff mp n (dp_name dm)) as Ei.
      { rewrite <- (sd_mids _ _ St) in Hi. unfold mids in Hi. rewrite nth_error_map, B1 in Hi. cbn in Hi. apply Some_inj in Hi. exact Hi. }
      rewrite Ei in B2, B3, H. cbn [mk_id id_file id_path] in B2, B3, H.
      assert (fi_raw fi = fl) as Er.
      { fold files in Hf. rewrite <- HR, <- (sd_raws _ _ St) in Hf. unfold raws in Hf. rewrite nth_error_map, B2 in Hf. cbn in Hf. apply Some_inj in Hf. exact Hf. }
      rewrite Er, M in B3. cbn [need] in B3. apply Ok_inj in B3. subst dm'.
      apply rbind_ok in H. destruct H as (v2 & C & H).
      eapply adds_trans; [|eapply adds_trans].
      - destruct (legal_number (fp_number fd)) eqn:Lg.
        + apply Ok_inj in A. subst v1. apply adds_refl.
        + eapply adds_push; [exact A|]. eexists. split; [reflexivity|]. left. split; [reflexivity|]. intros Q. apply legal_iff in Q. congruence.
      - eapply adds_fold; [|exact C]. intros r w w' Hr Hs. cbv beta in Hs. destruct (in_range r (fp_number fd)) eqn:R.
        + eapply adds_push; [exact Hs|]. eexists. split; [reflexivity|]. right. left. split; [reflexivity|]. destruct r as [lo hi]. exists lo, hi.
          apply in_range_iff in R. auto.
        + apply Ok_inj in Hs. subst. apply adds_refl.
      - destruct (fp_extendee fd) as [x|] eqn:Ex; destruct (existsb (fun r => in_range r (fp_number fd)) (dp_ext_ranges dm)) eqn:R.
        + apply Ok_inj in H. subst. apply adds_refl.
        + eapply adds_push; [exact H|]. eexists. split; [reflexivity|]. do 3 right. split; [reflexivity|]. split; [discriminate|].
          intros Q. apply in_ranges_iff in Q. congruence.
        + eapply adds_push; [exact H|]. eexists. split; [reflexivity|]. do 2 right. left. split; [reflexivity|]. split; [reflexivity|]. apply in_ranges_iff. exact R.
        + apply Ok_inj in H. subst. apply adds_refl.
    Qed.
    Lemma enum_adds epath n ff par en ep z f path v v' : In (EvEnum epath n ff par en ep) all -> steady p1 (v_pool v) ->
      check_enum_number en z (f, path) v = Ok v' ->
      adds (fun er => er = at_spot (f, path ++ [3%Z]) ErrEnumReserved /\ exists lo hi, In (lo, hi) (ep_reserved ep) /\ (lo <= z <= hi)%Z) v v'.
    Proof.
      intros Hm St H. pose proof (enum_id X p I fs p1 HN HL _ _ _ _ _ _ Hm) as Hi.
      pose proof (event_thing X p I fs _ _ Hm eq_refl) as (fl & Hf & D). cbn [ev_file_of ev_path ev_full] in Hf, D.
      apply enum_declared in D. destruct D as [scope [M _]]. apply enum_at_found in M.
      unfold check_enum_number in H. cbn [fst inside_spot snd] in H.
      apply rbind_ok in H. destruct H as (ei & B1 & H). apply at_ok in B1.
      apply rbind_ok in H. destruct H as (fi & B2 & H). apply at_ok in B2.
      apply rbind_ok in H. destruct H as (ep' & B3 & H).
      assert (e_id ei = mk_id ff epath n (ep_name ep)) as Ei.
      { rewrite <- (sd_eids _ _ St) in Hi. unfold eids in Hi. rewrite nth_error_map, B1 in Hi. cbn in Hi. apply Some_inj in Hi. exact Hi. }
      rewrite Ei in B2, B3, H. cbn [mk_id id_file id_path] in B2, B3, H.
      assert (fi_raw fi = fl) as Er.
      { fold files in Hf. rewrite <- HR, <- (sd_raws _ _ St) in Hf. unfold raws in Hf. rewrite nth_error_map, B2 in Hf. cbn in Hf. apply Some_inj in Hf. exact Hf. }
      rewrite Er, M in B3. cbn [need] in B3. apply Ok_inj in B3. subst ep'.
      eapply adds_fold; [|exact H]. intros r w w' Hr Hs. cbv beta in Hs. destruct (in_range_incl r z) eqn:R.
      - eapply adds_push; [exact Hs|]. split; [reflexivity|]. destruct r as [lo hi]. exists lo, hi. split; [exact Hr|].
        unfold in_range_incl in R. rewrite andb_true_iff, !Z.leb_le in R. exact R.
      - apply Ok_inj in Hs. subst. apply adds_refl.
    Qed.

    (** a field with its message and the fields before it *)
    Lemma own_field path full f msg i fd : e = EvField path full f msg i fd ->
      exists mpath mfull par dm scope fl, In (EvMessage mpath mfull f par msg dm) evs /\ nth_error files f = Some fl /\ message_at fl mpath scope dm /\
        path = mpath ++ [2%Z; pos i] /\ full = dotted mfull (fp_name fd) /\ nth_error (dp_fields dm) i = Some fd /\
        forall e' fd', In e' (kids 0 msg done) -> In fd' (ev_field e') ->
          ev_full e' = dotted mfull (fp_name fd') /\ ev_item e' = Some (IField fd') /\ exists j, (j < i)%nat /\ nth_error (dp_fields dm) j = Some fd'.
    Proof.
      intros Ee. destruct (visit_cc o fs) as [Hcl Hcm]. fold evs in Hcl, Hcm.
      destruct (Hcl e 0%nat msg use_in) as (h & Hh & Hd'); [rewrite Ee; reflexivity|].
      destruct Hd' as [[l Hd']|[? _]]; [|discriminate].
      destruct h as [| mpath mfull mf par mi dm | | | | | | |]; cbn in Hd'; try contradiction; [|destruct Hd' as [Q|[]]; discriminate].
      destruct Hd' as [Q|[Q|[]]]; [|discriminate]. inversion Q; subst mi l. clear Q.
      pose proof (proj1 (Hcm _ Hh) 0%nat msg _ (or_introl eq_refl)) as K.
      destruct (kid_pos o fs done e rest 0 msg Hl) as [Kp _]; [rewrite Ee; reflexivity|].
      assert (kids 0 msg evs = kids 0 msg done ++ e :: kids 0 msg rest) as Ks.
      { rewrite Hl, kids_app. unfold kids at 2. cbn [filter]. unfold owned at 1. rewrite Ee. cbn [owner]. rewrite !Nat.eqb_refl. reflexivity. }
      rewrite Ee in Kp. cbn [ev_pos] in Kp.
      assert (nth_error (kids 0 msg evs) i = Some e) as Ki by (rewrite Ks, Kp, nth_error_app2, Nat.sub_diag by lia; reflexivity).
      rewrite K in Ki. unfold g_fields in Ki. apply mapi_nth_inv in Ki. destruct Ki as (fd0 & F1 & F2).
      rewrite Ee in F2. injection F2 as F2a F2b F2c F2d. subst fd0 mf.
      destruct (event_thing X p I fs _ _ (use_all _ Hh) eq_refl) as (fl & Hf & D). cbn [ev_file_of ev_path ev_full] in Hf, D.
      apply message_declared in D. destruct D as [scope [M _]].
      exists mpath, mfull, par, dm, scope, fl. split; [exact Hh|]. split; [exact Hf|]. split; [exact M|]. split; [exact F2a|].
      split; [rewrite dotted_join; exact F2b|]. split; [exact F1|].
      intros e' fd' He' Hfd'. apply In_nth_error in He'. destruct He' as [j Hj].
      assert (j < length (kids 0 msg done))%nat as Lj by (apply nth_error_Some; congruence).
      assert (nth_error (kids 0 msg evs) j = Some e') as Kj by (rewrite Ks, nth_error_app1 by exact Lj; exact Hj).
      rewrite K in Kj. unfold g_fields in Kj. apply mapi_nth_inv in Kj. destruct Kj as (fd1 & G1 & G2). subst e'. cbn [ev_field] in Hfd'.
      destruct Hfd' as [<-|[]]. split; [cbn [ev_full]; symmetry; apply dotted_join|]. split; [reflexivity|]. exists j. split; [lia|exact G1].
    Qed.
    Lemma use_apart x it it' : In x done -> ev_item x = Some it -> ev_item e = Some it' -> ev_full x <> ev_full e.
    Proof.
      intros Hx Ex Ee E. assert (In x evs) as Hx' by (rewrite Hl; apply in_or_app; left; exact Hx).
      pose proof (event_thing X p I fs _ _ (use_all _ Hx') Ex) as T.
      pose proof (event_thing X p I fs _ _ (use_all _ use_in) Ee) as T'. rewrite E in T.
      destruct (nv_apart _ _ (names_are_valid X p I fs p1 HN) _ _ _ _ _ _ _ T T') as [A B].
      apply (split_apart o fs done e rest x Hl Hx). unfold place. congruence.
    Qed.

    (** types and defaults of fields and extensions *)
    Lemma member_adds n fd path fl g pa k v v1 v2 x :
      member_at fl path n fd -> (length (raws p) <= ev_file_of e)%nat -> nth_error files (ev_file_of e) = Some fl ->
      PR done pa -> p_names (v_pool v) = p_names p1 -> evals (v_pool v) = evals p1 -> nth_error (p_files (v_pool v)) (ev_file_of e) = Some g ->
      (forall x, In x (fi_trans g) <-> vis (ev_file_of e) x) ->
      resolve_type (fp_type fd) (fp_type_name fd) n (ev_file_of e) path v = Ok (k, v1) ->
      default_of X k fd (ev_file_of e, path) v1 = Ok (x, v2) -> adds Q2 v v2.
    Proof.
      intros Hm L Hf R En Ev Hg Hv T D.
      pose proof (resolve_type_pool _ _ _ _ _ _ _ _ T) as P1.
      assert (adds Q2 v v1) as A1.
      { destruct (type_adds _ _ _ _ _ _ _ _ _ T Hg) as [(-> & _)|[(_ & E1 & E2 & A)|(_ & E1 & E2 & A)]]; [apply adds_refl| |].
        - revert A. apply adds_imp. intros er ->. eapply points; [exact L|exact Hf|discriminate|]. eapply uf_no_type; eassumption.
        - revert A. apply adds_imp. intros er (w & Rw & ->). eapply points; [exact L|exact Hf|destruct Rw; discriminate|].
          eapply uf_reference; [eapply rf_type; eassumption| |exact Rw].
          intros n' d' Q. apply (refers_iff p1 vis (ev_file_of e) (fi_trans g) Hv n (fp_type_name fd) FFieldType) in Q. rewrite <- En in Q. exact (E2 _ _ Q). }
      eapply adds_trans; [exact A1|]. apply default_of_adds in D. revert D. apply adds_imp. intros er (kd & s & -> & Es & -> & Nd).
      rewrite P1 in Nd. cbn [inside_spot fst snd].
      destruct (type_adds _ _ _ _ _ _ _ _ _ T Hg) as [(-> & kd' & Ek & Ts)|[(Ek & _)|(Ek & _)]]; try discriminate. apply Some_inj in Ek. subst kd'.
      rewrite En in Ts. apply (spec_has_type X p I fs p1 HN vis (ev_file_of e) (fi_trans g) Hv) in Ts. destruct Ts as (t & Ht & Kr).
      eapply points; [exact L|exact Hf|discriminate|]. eapply uf_default; [exact Hm|exact Es|exact Ht|].
      intros Q. apply (default_iff X p I fs p1 HN HL (v_pool v) t kd (Some s) Ev Kr) in Q. destruct Q as [r Q]. exact (Nd r Q).
    Qed.

    Lemma number_points path n fd dm fl v v' :
      member_at fl path n fd -> numbered files names vis (ev_file_of e) fl path fd dm -> (length (raws p) <= ev_file_of e)%nat -> nth_error files (ev_file_of e) = Some fl ->
      adds (fun er => exists w, er = at_spot (ev_file_of e, path ++ [3%Z]) w /\
        ((w = ErrFieldNumber /\ ~ ((1 <= fp_number fd <= 536870911)%Z /\ ~ (19000 <= fp_number fd <= 19999)%Z)) \/
         (w = ErrReserved /\ in_ranges (fp_number fd) (dp_reserved dm)) \/
         (w = ErrInExtRange /\ fp_extendee fd = None /\ in_ranges (fp_number fd) (dp_ext_ranges dm)) \/
         (w = ErrNotInExtRange /\ fp_extendee fd <> None /\ ~ in_ranges (fp_number fd) (dp_ext_ranges dm)))) v v' -> adds Q2 v v'.
    Proof.
      intros Hm Hn L Hf. apply adds_imp. intros er (w & -> & [(-> & A)|[(-> & A)|[(-> & A & B)|(-> & A & B)]]]); (eapply points; [exact L|exact Hf|discriminate|]).
      - eapply uf_number; eassumption.
      - eapply uf_reserved; eassumption.
      - eapply uf_in_range; eassumption.
      - eapply uf_not_in_range; eassumption.
    Qed.
    Lemma as_u32_same a b : as_u32 a = as_u32 b -> same32 a b.
    Proof.
      unfold as_u32, same32. intros H. pose proof (Z.mod_pos_bound a 4294967296 ltac:(lia)). pose proof (Z.mod_pos_bound b 4294967296 ltac:(lia)). lia.
    Qed.
    Lemma not_file : forall path full f msg i fd, e = EvField path full f msg i fd -> forall path i f, e <> EvFile path i f.
    Proof. intros path full f msg i fd -> path' i' f'. discriminate. Qed.

    Lemma field_adds path full f msg i fd v v' : e = EvField path full f msg i fd -> PR done (v_pool v) -> resolve_step X fuel e v = Ok v' ->
      PR (done ++ [e]) (v_pool v') /\ adds Q2 v v'.
    Proof.
      intros Ee R H. destruct (own_field _ _ _ _ _ _ Ee) as (mpath & mfull & par & dm & scope & fl & Hm & Hfl & M & Ep & Ef & Hfd & Sib).
      destruct (use_file (IField fd) (v_pool v)) as (fl' & g & L & Hin & Hfl' & Dn & Hg & Hv); [rewrite Ee; reflexivity|exact R|].
      assert (ev_file_of e = f) as Hef by (rewrite Ee; reflexivity). rewrite Hef in L, Hfl', Hg, Hv. rewrite Hfl in Hfl'. apply Some_inj in Hfl'. subst fl'.
      rewrite Ee in Dn. cbn [ev_path ev_full] in Dn.
      pose proof (p1_located X p I fs Hu p1 H1) as Loc. rewrite Forall_forall in Loc. specialize (Loc _ use_in). rewrite Ee in Loc.
      destruct Loc as (fl' & L1 & L2 & _). rewrite HR, Hfl in L1. apply Some_inj in L1. subst fl'.
      pose proof (pr_steady _ _ R) as St.
      assert (fi_raw g = fl) as Er.
      { pose proof Hfl as Q. rewrite <- HR, <- (sd_raws _ _ St) in Q. unfold raws in Q. rewrite nth_error_map, Hg in Q. cbn in Q. apply Some_inj in Q. exact Q. }
      rewrite Ee in H. cbn [resolve_step] in H. unfold resolve_field in H.
      apply rbind_ok in H. destruct H as (m0 & _ & H). apply rbind_ok in H. destruct H as (v0 & A & H). apply assert_ok in A. destruct A as [-> _].
      apply rbind_ok in H. destruct H as (g0 & _ & H). apply rbind_ok in H. destruct H as (v1 & A1 & H).
      pose proof (check_field_number_pool _ _ _ _ _ A1) as P1.
      apply rbind_ok in H. destruct H as ([k v2] & A2 & H). pose proof (resolve_type_pool _ _ _ _ _ _ _ _ A2) as P2. rewrite P1 in P2.
      apply rbind_ok in H. destruct H as (json & A3 & H). apply rbind_ok in H. destruct H as ([d v3] & A4 & H).
      pose proof (default_of_pool X _ _ _ _ _ _ A4) as P3. rewrite P2 in P3.
      apply rbind_ok in H. destruct H as (m & Hmi & H). apply at_ok in Hmi. rewrite P3 in Hmi.
      assert (json = json_of fd) as Ej.
      { unfold resolve_json in A3. unfold json_of. destruct (fp_json fd); [apply Ok_inj in A3; congruence|].
        apply rbind_ok in A3. destruct A3 as (g1 & G1 & A3). apply at_ok in G1. rewrite P2, Hg in G1. apply Some_inj in G1. subst g1.
        rewrite Er, L2 in A3. cbn in A3. apply Ok_inj in A3. congruence. }
      pose proof (pr_msgs _ _ R _ _ _ _ _ _ _ Hm Hmi) as Tb.
      assert (length (m_oneofs m) = length (dp_oneofs dm)) as Lo.
      { pose proof (f_equal (fun l => nth_error l msg) (pr_oneofs _ _ R)) as Q. cbv beta in Q. rewrite !nth_error_map, Hmi in Q.
        rewrite (proj1 (ni_msgs _ _ _ _ (ni_nm _ _ _ _ HN) _ _ _ _ _ _ Hm)) in Q. cbn in Q. apply Some_inj in Q. rewrite Q, map_length.
        destruct (visit_cc o fs) as [_ Hcm]. fold evs in Hcm.
        refine (eq_trans (f_equal (@length event) (proj1 (Hcm _ Hm) 1%nat msg _ (or_intror (or_introl eq_refl)))) _). unfold g_oneofs. apply mapi_length. }
      apply rbind_ok in H. destruct H as ([one v4] & A5 & H).
      assert (exists h, p_messages (v_pool v4) = upd msg h (p_messages (v_pool v)) /\ p_names (v_pool v4) = p_names (v_pool v) /\
        p_file_names (v_pool v4) = p_file_names (v_pool v) /\ p_files (v_pool v4) = p_files (v_pool v) /\ p_enums (v_pool v4) = p_enums (v_pool v) /\
        (forall x, m_id (h x) = m_id x /\ length (m_oneofs (h x)) = length (m_oneofs x) /\ m_numbers (h x) = m_numbers x /\ m_names (h x) = m_names x /\ m_jsons (h x) = m_jsons x) /\
        adds Q2 v3 v4) as (h & P4 & F1 & F2 & F3 & F4 & Hh & A6).
      { destruct (fp_oneof fd) as [z|] eqn:Ez.
        - destruct ((z <? 0)%Z || (length (m_oneofs m) <=? Z.to_nat z)%nat) eqn:B.
          + apply rbind_ok in A5. destruct A5 as (v5 & B1 & A5). apply Ok_inj in A5. injection A5 as _ <-.
            pose proof (push_err_pool _ _ _ _ B1) as P5. rewrite P3 in P5. exists (fun x => x). rewrite P5. split; [symmetry; apply upd_id; reflexivity|]. do 4 (split; [reflexivity|]).
            split; [auto|]. eapply adds_push; [exact B1|]. unfold Q2, points_at. cbn [nowhere er_at er_what].
            eapply lf_oneof; [exact Hin|exact M|eapply nth_error_In; exact Hfd|exact Ez|].
            intros Q. apply not_false_iff_true in B. apply B. rewrite orb_false_iff, Z.ltb_ge, Nat.leb_gt. lia.
          + apply Ok_inj in A5. injection A5 as _ <-. exists (m_push_oneof_field (Z.to_nat z) i). unfold on_message, on_pool. cbn [v_pool set_messages p_messages p_names p_file_names p_files p_enums].
            rewrite P3. do 5 (split; [reflexivity|]). split; [|apply adds_same; reflexivity].
            intros x. cbn. split; [reflexivity|]. split; [apply upd_length|auto].
        - apply Ok_inj in A5. injection A5 as _ <-. exists (fun x => x). rewrite P3. split; [symmetry; apply upd_id; reflexivity|]. do 4 (split; [reflexivity|]). split; [auto|apply adds_refl]. }
      set (fi := FieldI _ _ _ _ _ _ _ _ _) in H. set (v5 := on_message msg (m_push_field fi (fp_name fd) i) v4) in H.
      apply rbind_ok in H. destruct H as (v6 & C1 & H). apply rbind_ok in H. destruct H as (v7 & C2 & H).
      apply adds_opt_push with (Q := Q2) in C1.
      2: { intros j Hj. destruct (tb_numbers _ _ _ Tb _ _ Hj) as (e' & fd' & T1 & T2 & T3). destruct (Sib _ _ T1 T2) as (_ & _ & j' & S1 & S2).
        rewrite <- Hef. eapply points; [rewrite Hef; exact L|rewrite Hef; exact Hfl|discriminate|]. rewrite Ep, <- app_assoc.
        eapply uf_same_number; [exact M|exact S1|exact S2|exact Hfd|apply as_u32_same; exact T3]. }
      apply adds_opt_push with (Q := Q2) in C2.
      2: { intros j Hj. exfalso. apply assoc_s_In in Hj. destruct (tb_names _ _ _ Tb _ _ Hj) as (e' & fd' & T1 & T2 & T3). destruct (Sib _ _ T1 T2) as (S0 & S1 & _).
        apply kids_in in T1. apply (use_apart e' (IField fd') (IField fd) (proj1 T1) S1); [rewrite Ee; reflexivity|]. rewrite S0, T3, Ee. cbn [ev_full]. congruence. }
      apply adds_opt_push with (Q := Q2) in H.
      2: { intros j Hj. apply assoc_s_In in Hj. destruct (tb_jsons _ _ _ Tb _ _ Hj) as (e' & fd' & T1 & T2 & T3). destruct (Sib _ _ T1 T2) as (_ & _ & j' & S1 & S2).
        rewrite <- Hef. eapply points; [rewrite Hef; exact L|rewrite Hef; exact Hfl|discriminate|]. rewrite Ep, <- app_assoc.
        eapply uf_same_json; [exact M|exact S1|exact S2|exact Hfd|]. change (json_of fd' = json_of fd). congruence. }
      destruct C1 as [C1 P6], C2 as [C2 P7], H as [H P8].
      split.
      - rewrite P8, P7, P6. unfold v5, on_message, on_pool. cbn [v_pool].
        eapply (PR_message done e (v_pool v) _ msg (fun x => m_push_field fi (fp_name fd) i (h x)) R).
        + intros. rewrite Ee. discriminate.
        + exact F1.
        + exact F2.
        + exact F3.
        + cbn [set_messages p_messages]. rewrite P4. apply upd_upd.
        + exact F4.
        + intros x. cbn. apply Hh.
        + intros x. cbn. apply Hh.
        + intros x Tx. destruct (Hh x) as (_ & _ & E1 & E2 & E3).
          assert (In e (kids 0 msg (done ++ [e]))) as Ke.
          { rewrite kids_snoc, Ee. unfold owned. cbn [owner]. rewrite !Nat.eqb_refl. apply in_or_app. right. left. reflexivity. }
          assert (In fd (ev_field e)) as Kf by (rewrite Ee; left; reflexivity).
          apply (tab_more _ e) in Tx. constructor; intros n j Hj; cbn in Hj.
          * rewrite E1 in Hj. destruct (N.eq_dec n (as_u32 (fp_number fd))) as [->|Ne]; [exists e, fd; auto|].
            rewrite bt_get_set_other in Hj by exact Ne. exact (tb_numbers _ _ _ Tx _ _ Hj).
          * rewrite E2 in Hj. apply put_in in Hj. destruct Hj as [Hj| ->]; [exact (tb_names _ _ _ Tx _ _ Hj)|exists e, fd; auto].
          * rewrite E3 in Hj. apply put_in in Hj. destruct Hj as [Hj| ->]; [exact (tb_jsons _ _ _ Tx _ _ Hj)|]. exists e, fd. auto.
      - eapply adds_trans; [|eapply adds_trans; [|eapply adds_trans; [exact A6|]]].
        + assert (member_at fl path full fd) as Mb by (left; exact Dn).
          eapply (number_points path full fd dm fl v v1 Mb); [|rewrite Hef; exact L|rewrite Hef; exact Hfl|rewrite Hef; exact (number_adds _ _ _ _ _ _ _ _ _ _ _ (use_all _ Hm) St A1)].
          rewrite Ep. eapply nu_field; eassumption.
        + eapply (member_adds full fd path fl g (v_pool v) k v1 v2 v3 d); rewrite ?Hef; try eassumption.
          * left. exact Dn.
          * rewrite P1. exact (sd_names _ _ St).
          * rewrite P1. exact (pr_evals _ _ R).
          * rewrite P1. exact Hg.
        + eapply adds_trans; [|eapply adds_trans; [exact C1|eapply adds_trans; [exact C2|exact H]]].
          apply adds_same. reflexivity.
    Qed.

    Lemma message_points n ref f path tag v i v' fl g : reference fl (path ++ [tag]) n ref message_type ->
      ev_file_of e = f -> (length (raws p) <= f)%nat -> nth_error files f = Some fl -> p_names (v_pool v) = p_names p1 ->
      nth_error (p_files (v_pool v)) f = Some g -> (forall x, In x (fi_trans g) <-> vis f x) ->
      find_message n ref f path tag v = Ok (i, v') -> adds Q2 v v' /\
        (forall j, i = Some j -> exists mp mn ff par dm, In (EvMessage mp mn ff par j dm) all /\ to_message files names vis f n ref dm).
    Proof.
      intros Hr <- L Hf En Hg Hv H. destruct (message_adds _ _ _ _ _ _ _ _ _ H Hg) as [(-> & j & -> & M)|(-> & R & A)].
      - split; [apply adds_refl|]. intros j' E. apply Some_inj in E. subst j'. rewrite En in M.
        exact (spec_to_message X p I fs p1 HN vis (ev_file_of e) (fi_trans g) Hv n ref j M).
      - split; [|discriminate]. revert A. apply adds_imp. intros er (w & Rw & ->). eapply points; [exact L|exact Hf|destruct Rw; discriminate|].
        eapply uf_reference; [exact Hr| |exact Rw]. intros n' d' Q.
        apply (refers_iff p1 vis (ev_file_of e) (fi_trans g) Hv n ref FMessage) in Q. rewrite <- En in Q. exact (R _ _ Q).
    Qed.

    Lemma method_adds path full f srv i m v v' : e = EvMethod path full f srv i m -> PR done (v_pool v) -> resolve_step X fuel e v = Ok v' ->
      PR (done ++ [e]) (v_pool v') /\ adds Q2 v v'.
    Proof.
      intros Ee R H. destruct (use_file (IMethod m) (v_pool v)) as (fl & g & L & Hin & Hfl & Dn & Hg & Hv); [rewrite Ee; reflexivity|exact R|].
      assert (ev_file_of e = f) as Hef by (rewrite Ee; reflexivity). rewrite Hef in L, Hfl, Hg, Hv.
      rewrite Ee in Dn. cbn [ev_path ev_full] in Dn. pose proof (pr_steady _ _ R) as St.
      rewrite Ee in H. cbn [resolve_step] in H. unfold resolve_method in H.
      apply rbind_ok in H. destruct H as (s0 & _ & H). apply rbind_ok in H. destruct H as (v0 & A & H). apply assert_ok in A. destruct A as [-> _].
      apply rbind_ok in H. destruct H as ([a v1] & A1 & H). apply rbind_ok in H. destruct H as ([b v2] & A2 & H). apply Ok_inj in H.
      pose proof (find_message_pool _ _ _ _ _ _ _ _ A1) as P1. pose proof (find_message_pool _ _ _ _ _ _ _ _ A2) as P2. rewrite P1 in P2.
      destruct (message_points full (mp_input m) f path 2%Z v a v1 fl g) as [B1 _]; try assumption; [apply rf_input; exact Dn|exact (sd_names _ _ St)|].
      destruct (message_points full (mp_output m) f path 3%Z v1 b v2 fl g) as [B2 _]; try assumption; [apply rf_output; exact Dn|rewrite P1; exact (sd_names _ _ St)|rewrite P1; exact Hg|].
      subst v'. split.
      - apply (PR_idle done e (v_pool v) _ R); try (unfold on_pool; cbn; rewrite P2; reflexivity). intros. rewrite Ee. discriminate.
      - eapply adds_trans; [exact B1|]. eapply adds_trans; [exact B2|]. apply adds_same. reflexivity.
    Qed.

    Lemma ext_adds path full f par i fd v v' : e = EvExt path full f par i fd -> PR done (v_pool v) -> resolve_step X fuel e v = Ok v' ->
      PR (done ++ [e]) (v_pool v') /\ adds Q2 v v'.
    Proof.
      intros Ee R H. destruct (use_file (IExt fd) (v_pool v)) as (fl & g & L & Hin & Hfl & Dn & Hg & Hv); [rewrite Ee; reflexivity|exact R|].
      assert (ev_file_of e = f) as Hef by (rewrite Ee; reflexivity). rewrite Hef in L, Hfl, Hg, Hv.
      rewrite Ee in Dn. cbn [ev_path ev_full] in Dn. pose proof (pr_steady _ _ R) as St.
      rewrite Ee in H. cbn [resolve_step] in H. unfold resolve_ext in H.
      apply rbind_ok in H. destruct H as (v0 & A & H). apply assert_ok in A. destruct A as [-> _].
      apply rbind_ok in H. destruct H as ([x v1] & A1 & H). pose proof (find_message_pool _ _ _ _ _ _ _ _ A1) as P1.
      destruct (message_points full (extendee fd) f path 2%Z v x v1 fl g) as [B1 M1]; try assumption; [apply rf_extendee; exact Dn|exact (sd_names _ _ St)|].
      apply rbind_ok in H. destruct H as (v2 & A2 & H).
      assert (exists j h, p_messages (v_pool v2) = upd j h (p_messages (v_pool v)) /\ p_names (v_pool v2) = p_names (v_pool v) /\
        p_file_names (v_pool v2) = p_file_names (v_pool v) /\ p_files (v_pool v2) = p_files (v_pool v) /\ p_enums (v_pool v2) = p_enums (v_pool v) /\
        (forall x, m_id (h x) = m_id x /\ length (m_oneofs (h x)) = length (m_oneofs x) /\ m_numbers (h x) = m_numbers x /\ m_names (h x) = m_names x /\ m_jsons (h x) = m_jsons x) /\
        adds Q2 v1 v2) as (j & h & P2 & F1 & F2 & F3 & F4 & Hh & B2).
      { destruct x as [x|].
        - apply rbind_ok in A2. destruct A2 as (mi & _ & A2). pose proof (check_field_number_pool _ _ _ _ _ A2) as P2.
          exists x, (m_push_ext i). rewrite P2. unfold on_message, on_pool. cbn [v_pool set_messages p_messages p_names p_file_names p_files p_enums]. rewrite P1.
          do 5 (split; [reflexivity|]). split; [intros y; cbn; auto|].
          destruct (M1 _ eq_refl) as (mp & mn & ff & par' & dm & Hm & Tm).
          assert (steady p1 (v_pool (on_message x (m_push_ext i) v1))) as St'.
          { unfold on_message, on_pool. cbn [v_pool]. rewrite P1. eapply steady_trans; [exact St|]. apply msg_steady. reflexivity. }
          refine (adds_trans _ _ _ _ (adds_same _ _ (on_message x (m_push_ext i) v1) eq_refl) _).
          eapply (number_points path full fd dm fl _ _ (or_intror Dn)); rewrite Hef; [eapply nu_ext; eassumption|exact L|exact Hfl|].
          exact (number_adds _ _ _ _ _ _ _ _ _ _ _ Hm St' A2).
        - apply Ok_inj in A2. subst v2. exists 0%nat, (fun y => y). rewrite P1. split; [symmetry; apply upd_id; reflexivity|].
          do 4 (split; [reflexivity|]). split; [auto|apply adds_refl]. }
      apply rbind_ok in H. destruct H as (g0 & _ & H). apply rbind_ok in H. destruct H as ([k v3] & A3 & H).
      pose proof (resolve_type_pool _ _ _ _ _ _ _ _ A3) as P3.
      apply rbind_ok in H. destruct H as (json & _ & H). apply rbind_ok in H. destruct H as ([d v4] & A4 & H). apply Ok_inj in H.
      pose proof (default_of_pool X _ _ _ _ _ _ A4) as P4. rewrite P3 in P4. subst v'. split.
      - unfold on_pool. cbn [v_pool]. eapply (PR_message done e (v_pool v) _ j h R).
        + intros. rewrite Ee. discriminate.
        + cbn. rewrite P4. exact F1.
        + cbn. rewrite P4. exact F2.
        + cbn. rewrite P4. exact F3.
        + cbn. rewrite P4. exact P2.
        + cbn. rewrite P4. exact F4.
        + intros y. apply Hh.
        + intros y. apply Hh.
        + intros y Ty. destruct (Hh y) as (_ & _ & E1 & E2 & E3). apply (tab_more _ e) in Ty.
          constructor; rewrite ?E1, ?E2, ?E3; apply Ty.
      - eapply adds_trans; [exact B1|]. eapply adds_trans; [exact B2|]. eapply adds_trans; [|apply adds_same; reflexivity].
        eapply (member_adds full fd path fl g (v_pool v) k v2 v3 v4 d); rewrite ?Hef; try eassumption.
        + right. exact Dn.
        + rewrite F1. exact (sd_names _ _ St).
        + unfold evals. rewrite F4. exact (pr_evals _ _ R).
        + rewrite F3. exact Hg.
    Qed.

    (** an enum value with its enum and the values before it *)
    Lemma own_value path full f en i x : e = EvEnumValue path full f en i x ->
      exists epath efull par ep scope fl, In (EvEnum epath efull f par en ep) evs /\ nth_error files f = Some fl /\ enum_at fl epath scope ep /\
        path = epath ++ [2%Z; pos i] /\ nth_error (ep_values ep) i = Some x /\
        forall e', In e' (kids 3 en done) -> (fst (ev_value e') = fst x -> ev_full e' = full) /\ (exists it, ev_item e' = Some it) /\
          exists j, (j < i)%nat /\ nth_error (ep_values ep) j = Some (ev_value e').
    Proof.
      intros Ee. destruct (visit_cc o fs) as [Hcl Hcm]. fold evs in Hcl, Hcm.
      destruct (Hcl e 3%nat en use_in) as (h & Hh & Hd'); [rewrite Ee; reflexivity|].
      assert (exists epath efull ef par ep, h = EvEnum epath efull ef par en ep) as (epath & efull & ef & par & ep & ->).
      { destruct Hd' as [[l Hd']|[_ [g Hd']]].
        - destruct h; cbn in Hd'; try contradiction; [destruct Hd' as [Q|[Q|[]]]; discriminate|destruct Hd' as [Q|[]]; discriminate].
        - destruct h; try discriminate. cbn in Hd'. inversion Hd'; subst. eauto 6. }
      destruct (proj2 (Hcm _ Hh) en _ eq_refl) as (scope & K).
      destruct (kid_pos o fs done e rest 3 en Hl) as [Kp _]; [rewrite Ee; reflexivity|].
      assert (kids 3 en evs = kids 3 en done ++ e :: kids 3 en rest) as Ks.
      { rewrite Hl, kids_app. unfold kids at 2. cbn [filter]. unfold owned at 1. rewrite Ee. cbn [owner]. rewrite !Nat.eqb_refl. reflexivity. }
      rewrite Ee in Kp. cbn [ev_pos] in Kp.
      assert (nth_error (kids 3 en evs) i = Some e) as Ki by (rewrite Ks, Kp, nth_error_app2, Nat.sub_diag by lia; reflexivity).
      rewrite K in Ki. unfold g_values in Ki. apply mapi_nth_inv in Ki. destruct Ki as (x0 & F1 & F2).
      rewrite Ee in F2. injection F2 as F2a F2b F2c F2d. subst x0 ef.
      destruct (event_thing X p I fs _ _ (use_all _ Hh) eq_refl) as (fl & Hf & D). cbn [ev_file_of ev_path ev_full] in Hf, D.
      apply enum_declared in D. destruct D as [sc [M _]].
      exists epath, efull, par, ep, sc, fl. split; [exact Hh|]. split; [exact Hf|]. split; [exact M|]. split; [exact F2a|]. split; [exact F1|].
      intros e' He'. apply In_nth_error in He'. destruct He' as [j Hj].
      assert (j < length (kids 3 en done))%nat as Lj by (apply nth_error_Some; congruence).
      assert (nth_error (kids 3 en evs) j = Some e') as Kj by (rewrite Ks, nth_error_app1 by exact Lj; exact Hj).
      rewrite K in Kj. unfold g_values in Kj. apply mapi_nth_inv in Kj. destruct Kj as (y & G1 & G2). subst e'. cbn [ev_value ev_full].
      split; [intros E; rewrite E; congruence|]. split; [eexists; reflexivity|]. exists j. split; [lia|exact G1].
    Qed.
    Lemma value_adds path full f en i x v v' : e = EvEnumValue path full f en i x -> PR done (v_pool v) -> resolve_step X fuel e v = Ok v' ->
      PR (done ++ [e]) (v_pool v') /\ adds Q2 v v'.
    Proof.
      intros Ee R H. destruct (own_value _ _ _ _ _ _ Ee) as (epath & efull & par & ep & scope & fl & He & Hfl & M & Ep & Hx & Sib).
      assert (exists it, ev_item e = Some it) as [it Eit] by (rewrite Ee; eexists; reflexivity).
      destruct (use_file it (v_pool v)) as (fl' & g & L & Hin & Hfl' & _ & _ & _); [exact Eit|exact R|].
      assert (ev_file_of e = f) as Hef by (rewrite Ee; reflexivity). rewrite Hef in L, Hfl'. rewrite Hfl in Hfl'. apply Some_inj in Hfl'. subst fl'.
      pose proof (pr_steady _ _ R) as St. rewrite Ee in H. cbn [resolve_step] in H. unfold resolve_enum_value in H.
      apply rbind_ok in H. destruct H as (v1 & A1 & H). pose proof (check_enum_number_pool _ _ _ _ _ A1) as P1.
      apply rbind_ok in H. destruct H as (ei & Hei & H). apply at_ok in Hei. rewrite P1 in Hei.
      pose proof (pr_enums _ _ R _ _ _ _ _ _ _ He Hei) as Vl.
      assert (e_alias ei = allow_alias ep) as Al.
      { pose proof (f_equal (fun l => nth_error l en) (pr_alias _ _ R)) as Q. cbv beta in Q. rewrite !nth_error_map, Hei in Q.
        rewrite (proj1 (ni_enums _ _ _ _ (ni_ne _ _ _ _ HN) _ _ _ _ _ _ He)) in Q. cbn in Q. apply Some_inj in Q. exact Q. }
      pose proof (SO _ (snd x) (vl_sorted _ _ _ Vl)) as Sr. pose proof (insert_sorted X (e_numbers ei) (snd x) i) as Is.
      destruct (x_search X (e_numbers ei) (snd x)) as [at0 found]. specialize (Is at0 found SO (vl_sorted _ _ _ Vl) eq_refl).
      apply rbind_ok in H. destruct H as (v2 & A2 & H).
      assert (adds Q2 v1 v2 /\ v_pool v2 = v_pool v1) as [B2 P2].
      { destruct (found && negb (e_alias ei)) eqn:B; [|apply Ok_inj in A2; subst; split; [apply adds_refl|reflexivity]].
        split; [|exact (push_err_pool _ _ _ _ A2)]. apply andb_true_iff in B. destruct B as [-> B]. apply negb_true_iff in B.
        eapply adds_push; [exact A2|]. destruct Sr as [kk Sr]. apply nth_error_In in Sr. destruct (vl_numbers _ _ _ Vl _ _ Sr) as (e' & T1 & T2).
        destruct (Sib _ T1) as (_ & _ & j & S1 & S2). rewrite <- Hef. eapply points; [rewrite Hef; exact L|rewrite Hef; exact Hfl|discriminate|].
        rewrite Ep, <- app_assoc. eapply uf_value_number; [exact M| |exact S1|exact S2|exact Hx|exact T2].
        intros Q. apply alias_iff in Q. congruence. }
      set (v3 := on_pool _ v2) in H. apply adds_opt_push with (Q := Q2) in H.
      2: { intros j Hj. exfalso. apply assoc_s_In in Hj. destruct (vl_names _ _ _ Vl _ _ Hj) as (e' & T1 & T2). destruct (Sib _ T1) as (S0 & (it' & S1) & _).
        apply kids_in in T1. apply (use_apart e' it' it (proj1 T1) S1 Eit). rewrite (S0 T2), Ee. reflexivity. }
      destruct H as [H P3]. split.
      - rewrite P3. unfold v3, on_pool. cbn [v_pool]. rewrite P2, P1. apply (PR_next done e (v_pool v) _ R).
        + intros. rewrite Ee. discriminate.
        + constructor; try reflexivity. unfold eids. cbn. apply map_upd. reflexivity.
        + reflexivity.
        + unfold evals. cbn. apply map_upd. reflexivity.
        + cbn. apply map_upd. reflexivity.
        + reflexivity.
        + cbn. intros j m Hm. exists m. split; [exact Hm|apply tab_more].
        + cbn [set_enums p_enums]. intros j m Hm. rewrite nth_upd in Hm. destruct (Nat.eqb_spec en j) as [<-|Ne].
          * rewrite Hei in Hm. cbn in Hm. apply Some_inj in Hm. subst m. exists ei. split; [exact Hei|]. intros Vx.
            assert (In e (kids 3 en (done ++ [e]))) as Ke.
            { rewrite kids_snoc, Ee. unfold owned. cbn [owner]. rewrite !Nat.eqb_refl. apply in_or_app. right. left. reflexivity. }
            assert (ev_value e = x) as Kv by (rewrite Ee; reflexivity).
            apply (val_more _ e) in Vx. constructor; cbn [e_numbers e_names].
            -- exact Is.
            -- intros z k Hz. apply (Permutation_in _ (insert_perm _ _ _)) in Hz. apply in_app_or in Hz. destruct Hz as [Hz|[Hz|[]]].
               ++ exact (vl_numbers _ _ _ Vx _ _ Hz).
               ++ injection Hz as <- <-. exists e. split; [exact Ke|rewrite Kv; reflexivity].
            -- intros n k Hn. apply put_in in Hn. destruct Hn as [Hn| ->]; [exact (vl_names _ _ _ Vx _ _ Hn)|]. exists e. split; [exact Ke|rewrite Kv; reflexivity].
          * exists m. split; [exact Hm|apply val_more].
      - eapply adds_trans; [|eapply adds_trans; [exact B2|eapply adds_trans; [apply adds_same; reflexivity|exact H]]].
        generalize (enum_adds _ _ _ _ _ _ _ _ _ _ _ (use_all _ He) St A1). apply adds_imp. intros er (-> & lo & hi & Q1' & Q2').
        exists fl. split; [exact L|]. split; [exact Hfl|]. right. split; [reflexivity|]. exists path. split; [reflexivity|].
        rewrite Ep, <- app_assoc. eapply uf_value_reserved; eassumption.
    Qed.

    Lemma deps_adds q index : forall ds k trans v t v', p_file_names (v_pool v) = p_file_names q -> raws (v_pool v) = raws q ->
      resolve_deps fuel index k ds trans v = Ok (t, v') ->
      gather fuel q ds trans = Ok t /\
      adds (fun er => exists j d, nth_error ds j = Some d /\ er = at_spot (index, [3; Z.of_nat (k + j)]%Z) (ErrFileNotFound d) /\ assoc_s d (p_file_names q) = None) v v' /\
      p_names (v_pool v') = p_names (v_pool v) /\ p_messages (v_pool v') = p_messages (v_pool v) /\ p_enums (v_pool v') = p_enums (v_pool v) /\
      p_file_names (v_pool v') = p_file_names (v_pool v) /\ raws (v_pool v') = raws (v_pool v) /\
      forall i, i <> index -> nth_error (p_files (v_pool v')) i = nth_error (p_files (v_pool v)) i.
    Proof.
      induction ds as [|d ds IH]; intros k trans v t v' En Er H; cbn [resolve_deps gather] in *.
      - apply Ok_inj in H. injection H as <- <-. split; [reflexivity|]. split; [apply adds_refl|]. do 5 (split; [reflexivity|]). reflexivity.
      - rewrite En in H. destruct (assoc_s d (p_file_names q)) as [di|] eqn:E.
        + apply rbind_ok in H. destruct H as (fi & _ & H). set (w := on_pool _ v) in H. apply rbind_ok in H. destruct H as (t1 & A1 & H).
          assert (p_file_names (v_pool w) = p_file_names q) as En' by exact En.
          assert (raws (v_pool w) = raws (v_pool v)) as Er0 by (apply raws_upd; reflexivity).
          assert (raws (v_pool w) = raws q) as Er' by congruence.
          rewrite (public_same fuel _ q _ _ En' Er') in A1. rewrite A1. cbn [rbind].
          destruct (IH _ _ _ _ _ En' Er' H) as (G & A & B1 & B2 & B3 & B4 & B5 & B6). split; [exact G|]. split.
          * eapply adds_trans; [apply (adds_same _ v w); reflexivity|]. revert A. apply adds_imp. intros er (j & d' & C1 & -> & C2).
            exists (Datatypes.S j), d'. split; [exact C1|]. split; [do 4 f_equal; lia|exact C2].
          * split; [exact B1|]. split; [exact B2|]. split; [exact B3|]. split; [exact B4|]. split; [congruence|].
            intros i Ni. rewrite (B6 i Ni). unfold w, on_pool. cbn. rewrite nth_upd. destruct (Nat.eqb_spec index i); [congruence|reflexivity].
        + apply rbind_ok in H. destruct H as (w & A1 & H). pose proof (push_err_pool _ _ _ _ A1) as P1.
          destruct (IH (Datatypes.S k) trans w t v') as (G & A & B1 & B2 & B3 & B4 & B5 & B6); [congruence|congruence|exact H|]. split; [exact G|]. split.
          * eapply adds_trans.
            -- eapply adds_push; [exact A1|]. exists 0%nat, d. rewrite Nat.add_0_r. auto.
            -- revert A. apply adds_imp. intros er (j & d' & C1 & -> & C2). exists (Datatypes.S j), d'. split; [exact C1|]. split; [do 4 f_equal; lia|exact C2].
          * rewrite P1 in *. do 5 (split; [assumption|]). assumption.
    Qed.
    Lemma file_adds path i f v v' : e = EvFile path i f -> PR done (v_pool v) -> resolve_step X fuel e v = Ok v' ->
      PR (done ++ [e]) (v_pool v') /\ adds Q2 v v'.
    Proof.
      intros Ee R H. pose proof (use_all _ use_in) as Ha. rewrite Ee in Ha. apply (file_all X p I fs) in Ha. destruct Ha as [-> Hf]. fold files in Hf.
      destruct (event_file p fs e use_in) as (k & f' & E1 & E2 & E3). rewrite Ee in E1, E3. cbn [ev_file_of of_file offsets_of] in E1, E3. rewrite <- (raws_len p) in E1.
      apply use_all in E3. apply (file_all X p I fs) in E3. destruct E3 as [_ E3]. fold files in E3. rewrite Hf in E3. apply Some_inj in E3. subst f'.
      pose proof (pr_steady _ _ R) as St.
      rewrite Ee in H. cbn [resolve_step] in H. unfold resolve_file in H.
      apply rbind_ok in H. destruct H as ([t v1] & A1 & H). apply rbind_ok in H. destruct H as (fi & Hfi & H). apply at_ok in Hfi.
      set (w := on_pool _ v1) in H. apply rbind_ok in H. destruct H as (v2 & A2 & H).
      destruct (deps_adds (files_only files) i (fl_deps f) 0 [i] v t v1) as (G & B & C1 & C2 & C3 & C4 & C5 & C6).
      { rewrite (sd_fnames _ _ St). apply (only_names X p I fs Hu p1 H1). }
      { rewrite (sd_raws _ _ St). apply (only_raws X p I fs Hu p1 H1). }
      { exact A1. }
      assert (v_pool v' = v_pool w) as Pw.
      { transitivity (v_pool v2).
        - eapply fold_res_pool; [|exact H]. intros; eapply check_import_pool; eassumption.
        - eapply fold_res_pool; [|exact A2]. intros; eapply check_import_pool; eassumption. }
      assert (raws (v_pool w) = raws (v_pool v1)) as Rw by (apply raws_upd; reflexivity).
      assert (nth_error (p_files (v_pool w)) i = Some (fi_set_trans t fi)) as Fw.
      { unfold w, on_pool. cbn. rewrite nth_upd, Nat.eqb_refl, Hfi. reflexivity. }
      assert (forall j, j <> i -> nth_error (p_files (v_pool w)) j = nth_error (p_files (v_pool v)) j) as Fo.
      { intros j Nj. rewrite <- (C6 j Nj). unfold w, on_pool. cbn. rewrite nth_upd. destruct (Nat.eqb_spec i j); [congruence|reflexivity]. }
      assert (p_names (v_pool w) = p_names (v_pool v)) as N1 by exact C1.
      assert (p_messages (v_pool w) = p_messages (v_pool v)) as N2 by exact C2.
      assert (p_enums (v_pool w) = p_enums (v_pool v)) as N3 by exact C3.
      assert (p_file_names (v_pool w) = p_file_names (v_pool v)) as N4 by exact C4.
      assert (raws (v_pool w) = raws (v_pool v)) as N5 by congruence.
      split.
      - rewrite Pw. constructor.
        + eapply steady_trans; [exact St|]. constructor; try assumption; [unfold mids; rewrite N2|unfold eids; rewrite N3]; reflexivity.
        + unfold evals. rewrite N3. exact (pr_evals _ _ R).
        + rewrite N3. exact (pr_alias _ _ R).
        + rewrite N2. exact (pr_oneofs _ _ R).
        + intros path' j f' Hin. apply in_app_or in Hin. destruct Hin as [Hin|[Hin|[]]].
          * assert (j <> i) as Nj.
            { intros ->. assert (In (EvFile path' i f') all) as Q by (apply use_all; rewrite Hl; apply in_or_app; left; exact Hin).
              apply (file_all X p I fs) in Q. destruct Q as [-> _]. apply (split_apart o fs done e rest _ Hl Hin). rewrite Ee. reflexivity. }
            rewrite (Fo _ Nj). exact (pr_files _ _ R _ _ _ Hin).
          * rewrite Ee in Hin. injection Hin as <- <- <-. exists (fi_set_trans t fi). split; [exact Fw|exact G].
        + intros path' full' f' par' j dm m He Hm. rewrite N2 in Hm. apply tab_more. exact (pr_msgs _ _ R _ _ _ _ _ _ _ He Hm).
        + intros path' full' f' par' j dm m He Hm. rewrite N3 in Hm. apply val_more. exact (pr_enums _ _ R _ _ _ _ _ _ _ He Hm).
      - assert (forall z, In z (fl_public f) \/ In z (fl_weak f) -> ~ (0 <= z < Z.of_nat (length (fl_deps f)))%Z -> Q2 (nowhere ErrImportIndex)) as Qi.
        { intros z Hz Nz. unfold Q2, points_at. cbn [nowhere er_at er_what]. eapply lf_import; [eapply nth_error_In; exact E2|exact Hz|exact Nz]. }
        apply (adds_trans Q2 v v1); [|apply (adds_trans Q2 v1 v2)].
        + revert B. apply adds_imp. intros er (j & d & D1 & -> & D2). cbn [Nat.add].
          assert (ev_file_of e = i) as Hef by (rewrite Ee; reflexivity). rewrite <- Hef. apply (points f); rewrite ?Hef; [lia|exact Hf|discriminate|].
          apply uf_import; [exact D1|]. intros g Hg Eg.
          assert (assoc_s d (p_file_names p1) <> None) as Q by (apply (p1_file X p I fs Hu p1 H1); exists g; auto).
          apply Q. rewrite (only_names X p I fs Hu p1 H1). exact D2.
        + refine (adds_trans _ _ _ _ (adds_same _ v1 w eq_refl) _). eapply adds_fold; [|exact A2]. intros z a a' Hz Hs. eapply import_adds; [exact Hs|]. eauto.
        + eapply adds_fold; [|exact H]. intros z a a' Hz Hs. eapply import_adds; [exact Hs|]. eauto.
    Qed.

    Lemma step_adds v v' : PR done (v_pool v) -> resolve_step X fuel e v = Ok v' -> PR (done ++ [e]) (v_pool v') /\ adds Q2 v v'.
    Proof.
      intros R H. assert (exists x, e = x) as [x Ex] by eauto.
      assert (v' = v -> (forall path i f, e <> EvFile path i f) -> PR (done ++ [e]) (v_pool v') /\ adds Q2 v v') as Idle.
      { intros -> Nf. split; [|apply adds_refl]. apply (PR_idle done e (v_pool v) _ R Nf); reflexivity. }
      destruct x.
      - eapply file_adds; eassumption.
      - apply Idle; [rewrite Ex in H; apply Ok_inj in H; congruence|intros; rewrite Ex; discriminate].
      - eapply field_adds; eassumption.
      - apply Idle; [rewrite Ex in H; apply Ok_inj in H; congruence|intros; rewrite Ex; discriminate].
      - rewrite Ex in H. cbn [resolve_step] in H. unfold resolve_service in H. apply rbind_ok in H. destruct H as (v1 & A & H).
        apply assert_ok in A. destruct A as [-> _]. apply Ok_inj in H. subst v'. split; [|apply adds_same; reflexivity].
        apply (PR_idle done e (v_pool v) _ R); try reflexivity. intros. rewrite Ex. discriminate.
      - eapply method_adds; eassumption.
      - apply Idle; [rewrite Ex in H; apply Ok_inj in H; congruence|intros; rewrite Ex; discriminate].
      - eapply value_adds; eassumption.
      - eapply ext_adds; eassumption.
    Qed.
  End Step.

  Theorem uses_faults v : fold_res (resolve_step X fuel) evs (V p1 []) = Ok v -> Forall Q2 (v_errs v).
  Proof.
    intros H. destruct (fold_adds (resolve_step X fuel) PR Q2 evs) with (v := V p1 []) (v' := v) as [_ A].
    - intros done e rest w w' Hl R Hs. exact (step_adds done e rest Hl w w' R Hs).
    - exact PR_init.
    - exact H.
    - apply (adds_all _ _ _ A). constructor.
  Qed.
End Uses.
