(** References and types, as the specification reads them and as the second phase
    of a build resolves them. *)
From Coq Require Import String Permutation Sorted.
From Verif Require Import Base BaseProofs Value Descr Proto Build VisitProofs EventProofs BuildFrame BuildNames BuildQuiet BuildResolve BuildInv BuildSafe DeclSpec DeclProofs PoolFacts PoolMembers WalkOnce ResolveSpec ResolveProofs DefaultSpec Prop_Resolve Prop_Defaults OptProofs ValidSpec AcceptSteps AcceptNames.
From Coq Require Import List.
Local Open Scope list_scope.

(** ** All tables of the names agree *)

Definition same_def (d d' : def) : Prop :=
  d_file d = d_file d' /\ d_path d = d_path d' /\ exists it, sort_of (d_kind d) it /\ sort_of (d_kind d') it.
Definition agrees (o o' : option def) : Prop :=
  match o, o' with
  | Some d, Some d' => (d_kind d = DPackage /\ d_kind d' = DPackage) \/ same_def d d'
  | None, None => True
  | _, _ => False
  end.
Definition agree (a b : str -> option def) : Prop := forall n, agrees (a n) (b n).
Lemma same_def_sym d d' : same_def d d' -> same_def d' d.
Proof. intros (A & B & it & C & D). split; [auto|]. split; [auto|]. exists it. auto. Qed.
Lemma agree_sym a b : agree a b -> agree b a.
Proof.
  intros H n. specialize (H n). unfold agrees in *. destruct (a n), (b n); auto.
  destruct H as [[A B]|H]; [left; auto|right; apply same_def_sym; exact H].
Qed.

Lemma stands_cases fs n d : stands_for fs n d ->
  (d_kind d = DPackage /\ exists f, nth_error fs (d_file d) = Some f /\ package_prefix f n) \/
  exists path it, d_path d = path ++ [1%Z] /\ thing fs (d_file d) path n it /\ sort_of (d_kind d) it.
Proof. unfold stands_for. destruct (d_kind d); auto. Qed.
Lemma thing_same fs k path n it n' it' : thing fs k path n it -> thing fs k path n' it' -> it = it'.
Proof.
  intros [f [Hf [sc [D _]]]] [f' [Hf' [sc' [D' _]]]].
  destruct (declared_visited _ off0 _ _ _ _ _ Hf D) as (e & He & E1 & E2 & _ & E4).
  destruct (declared_visited _ off0 _ _ _ _ _ Hf' D') as (e' & He' & F1 & F2 & _ & F4).
  assert (e = e') by (eapply visit_same; [exact He|exact He'|unfold place; congruence]). congruence.
Qed.
Lemma tables_agree old new a b : names_valid old new -> names_of (old ++ new) a -> names_of (old ++ new) b -> agree a b.
Proof.
  intros NV [A1 A2] [B1 B2] n. unfold agrees.
  destruct (a n) as [d|] eqn:Ea, (b n) as [d'|] eqn:Eb.
  - apply A1 in Ea. apply B1 in Eb. apply stands_cases in Ea. apply stands_cases in Eb.
    destruct Ea as [[K (f & Hf & P)]|(path & it & P & T & S)], Eb as [[K' (f' & Hf' & P')]|(path' & it' & P' & T' & S')].
    + left. auto.
    + exfalso. exact (nv_packages _ _ NV _ _ _ _ _ T' (nth_error_In _ _ Hf) P).
    + exfalso. exact (nv_packages _ _ NV _ _ _ _ _ T (nth_error_In _ _ Hf') P').
    + right. destruct (nv_apart _ _ NV _ _ _ _ _ _ _ T T') as [E1 E2]. subst path'. rewrite <- E1 in T'.
      assert (it = it') as <- by (eapply thing_same; eassumption). unfold same_def. split; [exact E1|]. split; [congruence|]. eauto.
  - apply A1 in Ea. exact (B2 _ _ Ea Eb).
  - apply B1 in Eb. exact (A2 _ _ Eb Ea).
  - exact Logic.I.
Qed.

Definition by_sort (fits : dkind -> Prop) : Prop :=
  ~ fits DPackage /\ forall k k' it, sort_of k it -> sort_of k' it -> fits k -> fits k'.
Lemma message_by_sort : by_sort message_type.
Proof.
  split; [intros [i H]; discriminate|]. intros k k' it S S' [i ->]. destruct it; try contradiction. destruct k'; try contradiction. eexists. reflexivity.
Qed.
Lemma field_by_sort : by_sort field_type.
Proof.
  split; [intros [[i H]|[i H]]; discriminate|]. intros k k' it S S' [[i ->]|[i ->]]; destruct it; try contradiction; destruct k'; try contradiction; [left|right]; eexists; reflexivity.
Qed.
Lemma container_agree d d' : (d_kind d = DPackage /\ d_kind d' = DPackage) \/ same_def d d' -> container (d_kind d) -> container (d_kind d').
Proof.
  intros [[_ ->]|(_ & _ & it & S & S')] C; [left; reflexivity|].
  destruct C as [C|[[i C]|[[i C]|[i C]]]]; rewrite C in S; destruct it; try contradiction; destruct (d_kind d'); try contradiction;
    unfold container; eauto 6.
Qed.

Section Agree.
  Context (fs : list file) (a b : str -> option def) (AG : agree a b) (vis : nat -> nat -> Prop).

  Lemma fitting_agree v fits n d : by_sort fits -> fitting a v fits n d -> exists d', fitting b v fits n d' /\ same_def d d'.
  Proof.
    intros [B1 B2] (F1 & F2 & F3). pose proof (AG n) as Q. rewrite F1 in Q. unfold agrees in Q. destruct (b n) as [d'|] eqn:E; [|contradiction].
    destruct Q as [[K _]|S]; [exfalso; apply B1; rewrite <- K; exact F3|]. exists d'. split; [|exact S].
    destruct S as (S1 & S2 & it & S3 & S4). split; [exact E|]. split; [rewrite <- S1; exact F2|]. exact (B2 _ _ _ S3 S4 F3).
  Qed.
End Agree.
Lemma resolves_agree a b v fits scope ref n d : agree a b -> by_sort fits -> resolves a v fits scope ref n d ->
  exists d', resolves b v fits scope ref n d' /\ same_def d d'.
Proof.
  intros AG B R. pose proof (agree_sym _ _ AG) as AG'. destruct R as [n d F|ref sc d N E F M|first rest sc c d Ne N E C K M F].
  - destruct (fitting_agree _ _ AG _ _ _ _ B F) as (d' & F' & S). exists d'. split; [apply rs_absolute; exact F'|exact S].
  - destruct (fitting_agree _ _ AG _ _ _ _ B F) as (d' & F' & S). exists d'. split; [|exact S].
    apply rs_simple; auto. intros sc' E' I' d'' Q. destruct (fitting_agree _ _ AG' _ _ _ _ B Q) as (d3 & F3 & _). exact (M _ E' I' _ F3).
  - destruct (fitting_agree _ _ AG _ _ _ _ B F) as (d' & F' & S). exists d'. split; [|exact S].
    pose proof (AG (dotted sc first)) as Q. rewrite C in Q. unfold agrees in Q. destruct (b (dotted sc first)) as [c'|] eqn:Ec; [|contradiction].
    eapply rs_compound; eauto; [eapply container_agree; eassumption|].
    intros sc' E' I' c3 C3 K3. pose proof (AG' (dotted sc' first)) as Q'. rewrite C3 in Q'. unfold agrees in Q'.
    destruct (a (dotted sc' first)) as [c4|] eqn:Ec4; [|contradiction]. apply (M _ E' I' _ Ec4). eapply container_agree; eassumption.
Qed.

Section File.
  Context (X : externs) (fs : list file) (a b : str -> option def) (AG : agree a b) (vis : nat -> nat -> Prop).
  Lemma refers_agree k fits full ref n d : by_sort fits -> refers a vis k fits full ref n d -> exists d', refers b vis k fits full ref n d' /\ same_def d d'.
  Proof.
    intros B [R1 R2]. destruct full as [|c full].
    - destruct (R2 eq_refl) as [F R]. destruct (fitting_agree _ _ AG _ _ _ _ B F) as (d' & F' & S). exists d'. split; [|exact S].
      split; [intros Q; contradiction|]. auto.
    - assert (c :: full <> []) as Ne by discriminate.
      destruct (resolves_agree _ _ _ _ _ _ _ _ AG B (R1 Ne)) as (d' & F' & S). exists d'. split; [|exact S]. split; [auto|discriminate].
  Qed.
  Lemma to_message_agree k full ref dm : to_message fs a vis k full ref dm -> to_message fs b vis k full ref dm.
  Proof.
    intros (n & d & path & R & P & T). destruct (refers_agree _ _ _ _ _ _ message_by_sort R) as (d' & R' & S1 & S2 & _).
    exists n, d', path. split; [exact R'|]. rewrite <- S1, <- S2. auto.
  Qed.
  Lemma has_type_agree k full fd t : has_type fs a vis k full fd t -> has_type fs b vis k full fd t.
  Proof.
    intros [s E S|n d path dm E R P T|n d path e E R P T].
    - apply ht_scalar; assumption.
    - destruct (refers_agree _ _ _ _ _ _ field_by_sort R) as (d' & R' & S1 & S2 & _). rewrite S1 in T. rewrite S2 in P. eapply ht_message; eassumption.
    - destruct (refers_agree _ _ _ _ _ _ field_by_sort R) as (d' & R' & S1 & S2 & _). rewrite S1 in T. rewrite S2 in P. eapply ht_enum; eassumption.
  Qed.
  Lemma typed_agree k full fd : typed X fs a vis k full fd -> typed X fs b vis k full fd.
  Proof. intros (t & H & D). exists t. split; [apply has_type_agree; exact H|exact D]. Qed.
  Lemma file_valid_agree k f : file_valid X fs a vis k f -> file_valid X fs b vis k f.
  Proof.
    intros [F1 F2 F3 F4 F5]. constructor; auto.
    - intros path scope m M. destruct (F2 _ _ _ M) as (A & B & C). split; [exact A|]. split; [exact B|].
      intros fd Hfd. destruct (C _ Hfd) as (C1 & C2 & C3). split; [exact C1|]. split; [apply typed_agree; exact C2|exact C3].
    - intros path n fd D. destruct (F4 _ _ _ D) as [(dm & A & B) C]. split; [|apply typed_agree; exact C]. exists dm. split; [apply to_message_agree; exact A|exact B].
    - intros path n m D. destruct (F5 _ _ _ D) as [(dm & A) (dm' & B)]. split; [exists dm|exists dm']; apply to_message_agree; assumption.
  Qed.
End File.

(** ** Resolved references *)

Lemma resolves_vis names v w fits scope ref n d : (forall x, v x <-> w x) ->
  resolves names v fits scope ref n d -> resolves names w fits scope ref n d.
Proof.
  intros E. assert (forall n d, fitting names v fits n d <-> fitting names w fits n d) as FE.
  { intros n' d'. unfold fitting. rewrite E. reflexivity. }
  intros [n' d' H|ref' sc d' H1 H2 H3 H4|first rest sc c d' H1 H2 H3 H4 H5 H6 H7].
  - apply rs_absolute. apply FE. exact H.
  - apply rs_simple; auto; [apply FE; exact H3|]. intros sc' A B d'' Q. apply FE in Q. exact (H4 sc' A B d'' Q).
  - eapply rs_compound; eauto. apply FE. exact H7.
Qed.

Section Specs.
  Context (X : externs) (p : pool) (I : Inv X p) (fs : list file) (Hu : unknown_files p fs).
  Let o := offsets_of p.
  Let evs := visit o fs.
  Let all := pool_events p ++ evs.
  Context (p1 : pool) (HN : NI o p evs p1) (L : later (length (p_files p)) p p1) (Hr : raws p1 = raws p ++ fs).
  Let names := fun n => assoc_s n (p_names p1).

  Section Seen.
    Context (vis : nat -> nat -> Prop) (k : nat) (trans : list nat) (Hv : forall x, In x trans <-> vis k x).
    Lemma refers_iff full ref r n d :
      resolve_name trans (p_names p1) full ref r = RFound n d <-> refers names vis k (filter_fits r) full ref n d.
    Proof.
      destruct full as [|c full].
      - rewrite resolve_none. unfold refers, fitting. rewrite is_match_fits, Hv. split.
        + intros [R F]. split; [intros Q; contradiction|]. intros _. split; [exact F|]. destruct R as [R|R]; [right|left]; exact R.
        + intros [_ R]. destruct (R eq_refl) as [F [Q|Q]]; (split; [|exact F]); [right|left]; exact Q.
      - rewrite C24_resolution by discriminate. split.
        + intros R. split; [|discriminate]. intros _. eapply resolves_vis; [exact Hv|exact R].
        + intros [R _]. eapply resolves_vis; [intros x; symmetry; apply Hv|]. apply R. discriminate.
    Qed.
    Lemma refers_named fits full ref n d : refers names vis k fits full ref n d -> assoc_s n (p_names p1) = Some d /\ fits (d_kind d).
    Proof.
      intros [R1 R2]. destruct full as [|c full].
      - destruct (R2 eq_refl) as [(F & _ & K) _]. auto.
      - assert (c :: full <> []) as Ne by discriminate. destruct (R1 Ne) as [n' d' (F & _ & K)|ref' sc d' H1 H2 (F & _ & K) H4|first rest sc c' d' H1 H2 H3 H4 H5 H6 (F & _ & K)]; auto.
    Qed.
    (** what is found is what is declared *)
    Lemma found_event n d : assoc_s n (p_names p1) = Some d -> d_kind d <> DPackage ->
      exists e it, In e all /\ is_event e (ev_file_of e) (ev_path e) n it /\ d = Def (ev_file_of e) (ev_path e ++ [1%Z]) (ev_kind e) /\
        thing (raws p ++ fs) (d_file d) (ev_path e) n it.
    Proof.
      intros H K. destruct (table_found X p I evs p1 HN _ _ H) as [[E _]|(e & it & A & B & C & ->)]; [contradiction|].
      exists e, it. split; [exact A|]. split; [split; [reflexivity|]; split; [reflexivity|]; split; assumption|]. split; [reflexivity|].
      pose proof (event_thing X p I fs _ _ A B) as T. rewrite C in T. exact T.
    Qed.
    Lemma thing_def n d path it : assoc_s n (p_names p1) = Some d -> d_path d = path ++ [1%Z] -> thing (raws p ++ fs) (d_file d) path n it ->
      exists e, In e all /\ is_event e (d_file d) path n it /\ d_kind d = ev_kind e.
    Proof.
      intros H P T. destruct (thing_event X p I fs _ _ _ _ T) as (e & He & E1 & E2 & E3 & E4).
      exists e. split; [exact He|]. split; [split; [exact E1|]; split; [exact E2|]; split; assumption|].
      pose proof (table_event X p I evs p1 HN e it He E4) as Q. rewrite E3, H in Q. apply Some_inj in Q. rewrite Q. reflexivity.
    Qed.

    Lemma to_message_spec full ref dm : to_message (raws p ++ fs) names vis k full ref dm ->
      exists path n f par i, message_spec (p_names p1) trans full ref i /\ In (EvMessage path n f par i dm) all.
    Proof.
      intros (n & d & path & R & P & T). pose proof (proj1 (refers_named _ _ _ _ _ R)) as Q.
      destruct (thing_def _ _ _ _ Q P T) as (e & He & (E1 & E2 & E3 & E4) & K). destruct e; try discriminate.
      cbn in E4. inversion E4; subst. do 5 eexists. split; [|exact He]. exists full0, d. split; [|exact K].
      apply refers_iff. exact R.
    Qed.
    Lemma spec_to_message full ref i : message_spec (p_names p1) trans full ref i ->
      exists path n f par dm, In (EvMessage path n f par i dm) all /\ to_message (raws p ++ fs) names vis k full ref dm.
    Proof.
      intros (n & d & R & K). apply refers_iff in R. pose proof (proj1 (refers_named _ _ _ _ _ R)) as Q.
      destruct (found_event _ _ Q) as (e & it & He & (_ & _ & E3 & E4) & D & T); [congruence|].
      assert (ev_kind e = DMessage i) as Ke by (rewrite <- K, D; reflexivity).
      destruct e; try discriminate. cbn in Ke, E4. inversion Ke; subst. inversion E4; subst.
      do 5 eexists. split; [exact He|]. eexists _, _, _. split; [exact R|]. split; [|exact T]. reflexivity.
    Qed.

    (** types *)
    Definition kind_rel (t : dtype) (kd : kind) : Prop :=
      match t with
      | DScalar s => kd = s /\ exists ty, scalar_type ty s
      | DMsg => exists i, kd = KMessage i \/ kd = KGroup i
      | DEnm e => exists path n f par i, kd = KEnum i /\ In (EvEnum path n f par i e) all
      end.
    Lemma scalar_iff ty kd : scalar_type ty kd <-> scalar_kind ty = Some kd.
    Proof.
      split; [intros []; reflexivity|]. destruct ty; cbn; intros H; try discriminate; apply Some_inj in H; subst kd; constructor.
    Qed.
    Lemma has_type_spec full fd t : has_type (raws p ++ fs) names vis k full fd t ->
      exists kd, type_spec (p_names p1) trans (fp_type fd) (fp_type_name fd) full kd /\ kind_rel t kd.
    Proof.
      intros [s E S|n d path dm E R P T|n d path e E R P T].
      - exists s. rewrite E. cbn. split; [apply scalar_iff; exact S|]. split; [reflexivity|eauto].
      - pose proof (proj1 (refers_named _ _ _ _ _ R)) as Q. destruct (thing_def _ _ _ _ Q P T) as (e & He & (E1 & E2 & E3 & E4) & K).
        destruct e; try discriminate. cbn in K. apply refers_iff in R || idtac.
        exists (match fp_type fd with TGroup => KGroup index | _ => KMessage index end). split.
        + unfold type_spec. destruct (fp_type_name fd) as [|c tn]; [contradiction|]. exists n, d. split; [apply (refers_iff full (c :: tn) FFieldType); exact R|].
          left. exists index. split; [exact K|reflexivity].
        + exists index. destruct (fp_type fd); auto.
      - pose proof (proj1 (refers_named _ _ _ _ _ R)) as Q. destruct (thing_def _ _ _ _ Q P T) as (e0 & He & (E1 & E2 & E3 & E4) & K).
        destruct e0; try discriminate. cbn in K, E4. inversion E4; subst.
        exists (KEnum index). split.
        + unfold type_spec. destruct (fp_type_name fd) as [|c tn]; [contradiction|]. eexists _, d. split; [apply (refers_iff full (c :: tn) FFieldType); exact R|].
          right. exists index. split; [exact K|reflexivity].
        + do 5 eexists. split; [reflexivity|exact He].
    Qed.
    Lemma spec_has_type full fd kd : type_spec (p_names p1) trans (fp_type fd) (fp_type_name fd) full kd ->
      exists t, has_type (raws p ++ fs) names vis k full fd t /\ kind_rel t kd.
    Proof.
      intros H. unfold type_spec in H. destruct (fp_type_name fd) as [|c tn] eqn:Tn.
      - apply scalar_iff in H. exists (DScalar kd). split; [apply ht_scalar; assumption|]. split; [reflexivity|eauto].
      - destruct H as (n & d & R & K). apply refers_iff in R. pose proof (proj1 (refers_named _ _ _ _ _ R)) as Q.
        destruct (found_event _ _ Q) as (e & it & He & (_ & _ & E3 & E4) & D & T); [destruct K as [[i [K _]]|[i [K _]]]; congruence|].
        assert (ev_kind e = d_kind d) as Ke by (rewrite D; reflexivity).
        destruct K as [[i [K ->]]|[i [K ->]]]; rewrite K in Ke; destruct e; try discriminate; cbn in Ke, E4; inversion Ke; subst; inversion E4; subst.
        + exists DMsg. split; [eapply ht_message; [rewrite Tn; discriminate|rewrite Tn; exact R|reflexivity|exact T]|].
          cbn. exists i. destruct (fp_type fd); auto.
        + eexists (DEnm _). split; [eapply ht_enum; [rewrite Tn; discriminate|rewrite Tn; exact R|reflexivity|exact T]|].
          do 5 eexists. split; [reflexivity|exact He].
    Qed.
  End Seen.

  (** messages and enums of the pool *)
  Lemma message_id path n f par i dm : In (EvMessage path n f par i dm) all -> nth_error (mids p1) i = Some (mk_id f path n (dp_name dm)).
  Proof.
    intros H. apply in_app_or in H. destruct H as [H|H].
    - apply (lt_mids _ _ _ L). destruct (iv_msgs _ _ I _ _ _ _ _ _ H) as [mi [A [B _]]]. unfold mids. rewrite nth_error_map, A. cbn. rewrite B. reflexivity.
    - unfold mids. rewrite nth_error_map, (proj1 (ni_msgs _ _ _ _ (ni_nm _ _ _ _ HN) _ _ _ _ _ _ H)). reflexivity.
  Qed.
  Lemma enum_id path n f par i e : In (EvEnum path n f par i e) all -> nth_error (eids p1) i = Some (mk_id f path n (ep_name e)).
  Proof.
    intros H. apply in_app_or in H. destruct H as [H|H].
    - apply (lt_eids _ _ _ L). destruct (iv_enums _ _ I _ _ _ _ _ _ H) as [mi [A [B _]]]. unfold eids. rewrite nth_error_map, A. cbn. rewrite B. reflexivity.
    - unfold eids. rewrite nth_error_map, (proj1 (ni_enums _ _ _ _ (ni_ne _ _ _ _ HN) _ _ _ _ _ _ H)). reflexivity.
  Qed.
  Lemma value_names es scope f i path vs : es = g_values f i path scope vs -> map (fun x => id_name (ev_id (mk_value x))) es = map fst vs.
  Proof.
    intros ->. unfold g_values. rewrite mapi_map. cbn [mk_value ev_id]. generalize 0%nat.
    induction vs as [|v vs IH]; intros n; [reflexivity|]. cbn [mapi map]. rewrite IH. f_equal.
    rewrite <- dotted_join. apply id_name_mk.
  Qed.
  Lemma enum_names path n f par i e : In (EvEnum path n f par i e) all ->
    exists vals, nth_error (evals p1) i = Some vals /\ map (fun v => id_name (ev_id v)) vals = map fst (ep_values e).
  Proof.
    intros H. apply in_app_or in H. destruct H as [H|H].
    - destruct (iv_enums _ _ I _ _ _ _ _ _ H) as [ei [A [B [C [D _]]]]]. exists (e_values ei). split.
      + apply (lt_evals _ _ _ L). unfold evals. rewrite nth_error_map, A. reflexivity.
      + rewrite D, map_map. destruct (proj2 (visit_cc off0 (raws p)) _ H) as [_ Q]. destruct (Q _ _ eq_refl) as [scope Q2].
        eapply value_names. exact Q2.
    - destruct (ni_enums _ _ _ _ (ni_ne _ _ _ _ HN) _ _ _ _ _ _ H) as [A _]. eexists. split.
      + unfold evals. rewrite nth_error_map, A. reflexivity.
      + cbn [names_enum_inner e_values]. rewrite map_map. destruct (proj2 (visit_cc o fs) _ H) as [_ Q]. destruct (Q _ _ eq_refl) as [scope Q2].
        eapply value_names. exact Q2.
  Qed.

  Lemma number_iff path n f par i dm fd : In (EvMessage path n f par i dm) all ->
    (number_spec (raws p1) (mids p1) i fd <-> number_valid dm fd).
  Proof.
    intros H. pose proof (message_id _ _ _ _ _ _ H) as Hi. pose proof (event_thing X p I fs _ _ H eq_refl) as (fl & Hf & D).
    cbn [ev_file_of ev_path ev_full] in Hf, D. apply message_declared in D. destruct D as [scope [M _]]. apply message_at_found in M.
    assert (forall r z, in_range r z = true <-> (fst r <= z < snd r)%Z) as IR.
    { intros r z. unfold in_range. rewrite andb_true_iff, Z.leb_le, Z.ltb_lt. reflexivity. }
    assert (legal_number (fp_number fd) = true <-> (1 <= fp_number fd <= 536870911)%Z /\ ~ (19000 <= fp_number fd <= 19999)%Z) as LN.
    { unfold legal_number. rewrite andb_true_iff, negb_true_iff, <- not_true_iff_false, !IR. cbn [fst snd]. lia. }
    unfold number_spec, number_valid. split.
    - intros (id & fl' & mp & A & B & C & E & R & Ex). rewrite Hi in A. apply Some_inj in A. subst id. cbn [mk_id id_file id_path] in B, C.
      rewrite Hr, Hf in B. apply Some_inj in B. subst fl'. rewrite M in C. apply Some_inj in C. subst mp.
      apply LN in E. split; [apply E|]. split; [apply E|]. split.
      + intros lo hi Hin Q. specialize (R _ Hin). apply not_true_iff_false in R. apply R. apply IR. exact Q.
      + split.
        * intros (lo & hi & Hin & Q). intros Z. rewrite Z in Ex. apply not_true_iff_false in Ex. apply Ex. apply existsb_exists. exists (lo, hi). split; [exact Hin|]. apply IR. exact Q.
        * intros Z. destruct (fp_extendee fd); [|contradiction]. apply existsb_exists in Ex. destruct Ex as [[lo hi] [Hin Q]]. apply IR in Q. eauto.
    - intros (N1 & N2 & R & Ex). exists (mk_id f path n (dp_name dm)), fl, dm. split; [exact Hi|]. cbn [mk_id id_file id_path].
      split; [rewrite Hr; exact Hf|]. split; [exact M|]. split; [apply LN; auto|]. split.
      + intros [lo hi] Hin. apply not_true_iff_false. intros Q. apply IR in Q. exact (R _ _ Hin Q).
      + destruct (fp_extendee fd) as [x|].
        * destruct (proj2 Ex ltac:(discriminate)) as (lo & hi & Hin & Q). apply existsb_exists. exists (lo, hi). split; [exact Hin|apply IR; exact Q].
        * apply not_true_iff_false. intros Q. apply existsb_exists in Q. destruct Q as [[lo hi] [Hin Q]]. apply IR in Q.
          apply (proj1 Ex); eauto.
  Qed.
  Lemma enum_number_iff path n f par i e z : In (EvEnum path n f par i e) all ->
    (enum_number_spec (raws p1) (eids p1) i z <-> forall lo hi, In (lo, hi) (ep_reserved e) -> ~ (lo <= z <= hi)%Z).
  Proof.
    intros H. pose proof (enum_id _ _ _ _ _ _ H) as Hi. pose proof (event_thing X p I fs _ _ H eq_refl) as (fl & Hf & D).
    cbn [ev_file_of ev_path ev_full] in Hf, D. apply enum_declared in D. destruct D as [scope [M _]]. apply enum_at_found in M.
    assert (forall r, in_range_incl r z = true <-> (fst r <= z <= snd r)%Z) as IR.
    { intros r. unfold in_range_incl. rewrite andb_true_iff, !Z.leb_le. reflexivity. }
    unfold enum_number_spec. split.
    - intros (id & fl' & mp & A & B & C & R). rewrite Hi in A. apply Some_inj in A. subst id. cbn [mk_id id_file id_path] in B, C.
      rewrite Hr, Hf in B. apply Some_inj in B. subst fl'. rewrite M in C. apply Some_inj in C. subst mp.
      intros lo hi Hin Q. specialize (R _ Hin). apply not_true_iff_false in R. apply R. apply IR. exact Q.
    - intros R. exists (mk_id f path n (ep_name e)), fl, e. split; [exact Hi|]. cbn [mk_id id_file id_path].
      split; [rewrite Hr; exact Hf|]. split; [exact M|]. intros [lo hi] Hin. apply not_true_iff_false. intros Q. apply IR in Q. exact (R _ _ Hin Q).
  Qed.

  (** defaults *)
  Lemma default_iff pa t kd d : evals pa = evals p1 -> kind_rel t kd ->
    ((exists r, default_spec X (p_enums pa) kd d r) <-> default_valid X t d).
  Proof.
    intros He K. destruct d as [s|]; [|cbn; split; eauto]. cbn [default_spec default_valid].
    assert (forall kd0, scalar_text kd0 -> (exists r, exists v, r = Some v /\ parse_simple X kd0 s = Ok (Some v)) <-> exists v, denotes (fun _ => []) kd0 s v) as SC.
    { intros kd0 S. split.
      - intros (r & v & _ & H). exists v. apply (C33_scalar_exact X _ _ _ _ S). exact H.
      - intros (v & H). exists (Some v), v. split; [reflexivity|]. apply (C33_scalar_exact X _ _ _ _ S) in H. exact H. }
    assert (forall (o0 : option N) (g : N -> value), (exists r v, r = Some v /\ Ok (option_map g o0) = Ok (Some v)) <-> o0 <> None) as FL.
    { intros [x|] g; cbn.
      - split; [discriminate|]. intros _. exists (Some (g x)), (g x). auto.
      - split; [intros (r & v & _ & H); discriminate|intros H; contradiction]. }
    destruct t as [sc| |e].
    - destruct K as [-> [ty S]]. destruct S; try (apply SC; split; exact Logic.I).
      + apply (FL (x_f64 X s) VF64).
      + apply (FL (x_f32 X s) VF32).
      + cbn [parse_simple]. destruct (unescape_c (x_checked X) s) as [[bs|]| | |]; cbn [rbind option_map].
        * split; [eauto|]. intros _. exists (Some (VBytes bs)), (VBytes bs). auto.
        * split; [intros (r & v & _ & H); discriminate|intros (b & H); discriminate].
        * split; [intros (r & v & _ & H); discriminate|intros (b & H); discriminate].
        * split; [intros (r & v & _ & H); discriminate|intros (b & H); discriminate].
        * split; [intros (r & v & _ & H); discriminate|intros (b & H); discriminate].
    - destruct K as [i [-> | ->]]; (split; [intros (r & v & _ & H); exact H|intros []]).
    - destruct K as (path & n & f & par & i & -> & H). destruct (enum_names _ _ _ _ _ _ H) as (vals & A & B).
      rewrite <- He in A. unfold evals in A. apply nth_map_some in A. destruct A as [en [A1 A2]]. rewrite <- B. split.
      + intros (r & v & _ & en' & x & C & F & _). assert (en' = en) as -> by congruence. apply find_some in F. destruct F as [F1 F2].
        apply bytes_eqb_eq in F2. rewrite A2 in F1. rewrite <- F2. apply (in_map (fun v => id_name (ev_id v))). exact F1.
      + intros Q. apply in_map_iff in Q. destruct Q as [v [Q1 Q2]]. rewrite <- A2 in Q2.
        destruct (find (fun x => bytes_eqb (id_name (ev_id x)) s) (e_values en)) as [x|] eqn:F.
        * eexists _, _. split; [reflexivity|]. exists en, x. split; [exact A1|]. split; [exact F|reflexivity].
        * exfalso. pose proof (find_none _ _ F _ Q2) as Z. cbn in Z. rewrite Q1, bytes_eqb_refl in Z. discriminate.
  Qed.

  Lemma typed_iff vis k trans pa full fd : (forall x, In x trans <-> vis k x) -> evals pa = evals p1 ->
    (typed X (raws p ++ fs) names vis k full fd <->
     exists kd d, type_spec (p_names p1) trans (fp_type fd) (fp_type_name fd) full kd /\ default_spec X (p_enums pa) kd (fp_default fd) d).
  Proof.
    intros Hv He. split.
    - intros (t & H & D). destruct (has_type_spec vis k trans Hv _ _ _ H) as (kd & T & K).
      apply (default_iff pa t kd _ He K) in D. destruct D as [r D]. eauto.
    - intros (kd & d & T & D). destruct (spec_has_type vis k trans Hv _ _ _ T) as (t & H & K). exists t. split; [exact H|].
      apply (default_iff pa t kd _ He K). eauto.
  Qed.
End Specs.
