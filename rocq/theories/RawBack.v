(** The files given back say what the pool shows, and mean the same (for C63). *)
From Verif Require Import Base BaseProofs Value Descr Proto Build VisitProofs EventProofs BuildFrame BuildNames BuildQuiet BuildResolve BuildInv BuildSafe DeclSpec DeclProofs PoolFacts ResolveSpec Prop_Resolve ValidSpec AcceptSteps AcceptNames AcceptRefs AcceptResolve AcceptVisible WalkOnce Raw RawSpec RawPlaces RawWalk RawAgain RawTrack.
From Coq Require Import List Lia ZArith NArith.
Import ListNotations.
Local Open Scope list_scope.

(** ** A reference found, by its full name *)

Lemma lookup_self tr nm a r n d : lookup_name tr nm a r = RFound n d -> lookup_name tr nm n r = RFound n d.
Proof.
  intros H. assert (a = n) as <-; [|exact H]. unfold lookup_name in H. destruct (assoc_s a nm) as [d'|]; [|discriminate].
  destruct (negb _); [discriminate|]. destruct (negb _); [discriminate|]. injection H. auto.
Qed.
Lemma loop_self tr nm r rel ps : forall e n d, (forall n d, e <> RFound n d) -> resolve_loop tr nm r rel ps e = RFound n d -> lookup_name tr nm n r = RFound n d.
Proof.
  induction ps as [|c ps IH]; intros e n d He H; cbn [resolve_loop] in H; [exfalso; exact (He _ _ H)|].
  destruct (_ =? _)%nat.
  - destruct (lookup_name tr nm (join_scope c (first_part rel)) r) eqn:L;
      first [rewrite H in L; exact (lookup_self _ _ _ _ _ _ L)
            |eapply IH; [|exact H]; intros; destruct e; try discriminate; apply He].
  - destruct (assoc_s _ _) as [d'|]; [|exact (IH _ _ _ He H)]. destruct (is_parent _); [|exact (IH _ _ _ He H)].
    destruct (lookup_name tr nm (join_scope c rel) r) eqn:L; try discriminate. rewrite H in L. exact (lookup_self _ _ _ _ _ _ L).
Qed.
Lemma found_self tr nm full a r n d : resolve_name tr nm full a r = RFound n d -> lookup_name tr nm n r = RFound n d.
Proof.
  unfold resolve_name.
  destruct a as [|c a]; [|destruct (c =? dot); [apply lookup_self|]]; (destruct full; [apply lookup_self|]); apply loop_self; discriminate.
Qed.
Lemma absolute_name tr nm full n r : resolve_name tr nm full (dot :: n) r = lookup_name tr nm n r.
Proof. unfold resolve_name. rewrite N.eqb_refl. reflexivity. Qed.
Lemma found_absolute tr nm full a r n d : resolve_name tr nm full a r = RFound n d -> resolve_name tr nm full (dot :: n) r = RFound n d.
Proof. intros H. rewrite absolute_name. eapply found_self. exact H. Qed.

(** ** Places that already hold what is written *)
Lemma upd_fixed {A} (g : A -> A) l : forall i, (forall a, nth_error l i = Some a -> g a = a) -> upd i g l = l.
Proof. induction l as [|a l IH]; intros [|i] H; cbn; [reflexivity|reflexivity| |]; f_equal; [apply H; reflexivity|apply IH; exact H]. Qed.
Lemma message_field_fixed g path : forall m x, find_message_field m path = Some x -> g x = x -> on_message_field g path m = m.
Proof.
  induction path as [|t|t i r IH] using path_two; intros m x H E; [reflexivity|reflexivity|]. destruct m as [n fs xs ns es er os me rv]. cbn [on_message_field find_message_field dp_fields dp_exts dp_nested] in *.
  destruct (t =? 2)%Z; [destruct r; [|reflexivity]; rewrite upd_fixed; [reflexivity|]; congruence|].
  destruct (t =? 6)%Z; [destruct r; [|reflexivity]; rewrite upd_fixed; [reflexivity|]; congruence|].
  destruct (t =? 3)%Z; [|reflexivity]. rewrite upd_fixed; [reflexivity|]. intros a Ha. rewrite Ha in H. eapply IH; eassumption.
Qed.
Lemma on_field_fixed g path raw x : find_file_field raw path = Some x -> g x = x -> on_file_field g path raw = raw.
Proof.
  intros H E. destruct path as [|t [|i r]]; try reflexivity. destruct raw as [nm pk ds pb wk ms es ss xs sy]. cbn [on_file_field find_file_field fl_messages fl_exts] in *.
  destruct (t =? 4)%Z; [rewrite upd_fixed; [reflexivity|]; intros a Ha; rewrite Ha in H; eapply message_field_fixed; eassumption|].
  destruct (t =? 7)%Z; [|reflexivity]. destruct r; [|reflexivity]. rewrite upd_fixed; [reflexivity|]. congruence.
Qed.
Lemma on_method_fixed g path raw m : find_file_method raw path = Some m -> g m = m -> on_file_method g path raw = raw.
Proof.
  intros H E. destruct path as [|t [|i r]]; try reflexivity. destruct raw as [nm pk ds pb wk ms es ss xs sy]. cbn [on_file_method find_file_method fl_services] in *.
  destruct (t =? 6)%Z; [|reflexivity]. destruct r as [|t2 [|j [|? ?]]]; try reflexivity. destruct (t2 =? 2)%Z; [|reflexivity].
  rewrite upd_fixed; [reflexivity|]. intros s Hs. rewrite Hs in H. destruct s as [sn mts]. cbn in *. rewrite upd_fixed; [reflexivity|]. congruence.
Qed.

Lemma pair_nth {A B} (g : A -> B) l l' : map g l = map g l' -> forall n a, nth_error l n = Some a -> exists a', nth_error l' n = Some a' /\ g a' = g a.
Proof.
  intros E n a H. assert (nth_error (map g l') n = Some (g a)) as Q by (rewrite <- E, nth_error_map, H; reflexivity).
  rewrite nth_error_map in Q. destruct (nth_error l' n) as [a'|]; [|discriminate]. exists a'. split; [reflexivity|]. cbn in Q. apply Some_inj in Q. exact Q.
Qed.

Section Back.
  Context (X : externs) (SO : search_ok X) (p : pool) (I : Inv X p) (fs : list file) (Hu : unknown_files p fs) (p1 : pool).
  Let o := offsets_of p.
  Let evs := visit o fs.
  Context (H1 : fold_res names_step evs (V p []) = Ok (V p1 [])) (fuel : nat) (p2 : pool)
          (H2 : fold_res (resolve_step X fuel) evs (V p1 []) = Ok (V p2 [])).
  Let base := length (p_files p).
  Let nm := p_names p1.
  Context (out : list file) (HO : resolve_raws X fuel base evs (V p1 []) fs = Ok out).

  Lemma back_blank : map blank_file out = map blank_file fs.
  Proof. exact (raws_blank X fuel base evs _ _ _ HO). Qed.
  Lemma back_events : map blank_event evs = map blank_event (visit o out).
  Proof. symmetry. apply walk_alike. exact back_blank. Qed.

  (** the same step of the walk over the files given back *)
  Lemma partner_field n path full f m i x : nth_error evs n = Some (EvField path full f m i x) ->
    exists x' j r g2, nth_error (visit o out) n = Some (EvField path full f m i x') /\ f = (base + j)%nat /\ nth_error out j = Some r /\
      declares_name r path full (IField x') /\ nth_error (p_files p2) f = Some g2 /\ field_written nm (fi_trans g2) full x x'.
  Proof.
    intros Hn. destruct (pair_nth _ _ _ back_events _ _ Hn) as (e' & He' & B).
    destruct e' as [| |pa fu f' m' i' y| | | | | |]; try discriminate. cbn [blank_event] in B.
    assert (pa = path /\ fu = full /\ f' = f /\ m' = m /\ i' = i) as (-> & -> & -> & -> & ->) by (repeat split; congruence). clear B.
    destruct (track_field X SO p I fs Hu p1 H1 fuel p2 H2 out HO path full f m i x (nth_error_In _ _ Hn)) as (j & r & x' & g2 & T1 & T2 & T3 & T4 & T5).
    destruct (event_new p out _ _ (nth_error_In _ _ He') eq_refl) as (k & r' & K1 & K2 & D). cbn [ev_file_of ev_path ev_full of_file offsets_of] in K1, D.
    assert (k = j) as -> by (unfold base in T1; lia). rewrite T2 in K2. apply Some_inj in K2. subst r'.
    destruct D as (scope & D & Ef). pose proof (field_found _ _ _ _ D) as Q. fold base in T1. rewrite T3 in Q. apply Some_inj in Q. subst y.
    exists x', j, r, g2. split; [exact He'|]. split; [exact T1|]. split; [exact T2|]. split; [exists scope; auto|]. auto.
  Qed.
  Lemma partner_ext n path full f par i x : nth_error evs n = Some (EvExt path full f par i x) ->
    exists x' j r g2, nth_error (visit o out) n = Some (EvExt path full f par i x') /\ f = (base + j)%nat /\ nth_error out j = Some r /\
      declares_name r path full (IExt x') /\ nth_error (p_files p2) f = Some g2 /\ ext_written nm (fi_trans g2) full x x'.
  Proof.
    intros Hn. destruct (pair_nth _ _ _ back_events _ _ Hn) as (e' & He' & B).
    destruct e' as [| | | | | | | |pa fu f' m' i' y]; try discriminate. cbn [blank_event] in B.
    assert (pa = path /\ fu = full /\ f' = f /\ m' = par /\ i' = i) as (-> & -> & -> & -> & ->) by (repeat split; congruence). clear B.
    destruct (track_ext X SO p I fs Hu p1 H1 fuel p2 H2 out HO path full f par i x (nth_error_In _ _ Hn)) as (j & r & x' & g2 & T1 & T2 & T3 & T4 & T5).
    destruct (event_new p out _ _ (nth_error_In _ _ He') eq_refl) as (k & r' & K1 & K2 & D). cbn [ev_file_of ev_path ev_full of_file offsets_of] in K1, D.
    assert (k = j) as -> by (unfold base in T1; lia). rewrite T2 in K2. apply Some_inj in K2. subst r'.
    destruct D as (scope & D & Ef). pose proof (ext_found _ _ _ _ D) as Q. fold base in T1. rewrite T3 in Q. apply Some_inj in Q. subst y.
    exists x', j, r, g2. split; [exact He'|]. split; [exact T1|]. split; [exact T2|]. split; [exists scope; auto|]. auto.
  Qed.
  Lemma partner_method n path full f s i m : nth_error evs n = Some (EvMethod path full f s i m) ->
    exists m' j r g2, nth_error (visit o out) n = Some (EvMethod path full f s i m') /\ f = (base + j)%nat /\ nth_error out j = Some r /\
      declares_name r path full (IMethod m') /\ nth_error (p_files p2) f = Some g2 /\ method_written nm (fi_trans g2) full m m'.
  Proof.
    intros Hn. destruct (pair_nth _ _ _ back_events _ _ Hn) as (e' & He' & B).
    destruct e' as [| | | | |pa fu f' m' i' y| | |]; try discriminate. cbn [blank_event] in B.
    assert (pa = path /\ fu = full /\ f' = f /\ m' = s /\ i' = i) as (-> & -> & -> & -> & ->) by (repeat split; congruence). clear B.
    destruct (track_method X SO p I fs Hu p1 H1 fuel p2 H2 out HO path full f s i m (nth_error_In _ _ Hn)) as (j & r & x' & g2 & T1 & T2 & T3 & T4 & T5).
    destruct (event_new p out _ _ (nth_error_In _ _ He') eq_refl) as (k & r' & K1 & K2 & D). cbn [ev_file_of ev_path ev_full of_file offsets_of] in K1, D.
    assert (k = j) as -> by (unfold base in T1; lia). rewrite T2 in K2. apply Some_inj in K2. subst r'.
    destruct D as (scope & D & Ef). pose proof (method_found _ _ _ _ D) as Q. fold base in T1. rewrite T3 in Q. apply Some_inj in Q. subst y.
    exists x', j, r, g2. split; [exact He'|]. split; [exact T1|]. split; [exact T2|]. split; [exists scope; auto|]. auto.
  Qed.

  (** ** What the names written stand for *)
  Lemma named_message tr full a r n d i : resolve_name tr nm full a r = RFound n d -> d_kind d = DMessage i -> message_named p2 i n.
  Proof.
    intros R K. apply resolve_visible in R. destruct R as [A _].
    destruct (found_event X p I fs p1 (p1_NI p fs p1 H1) _ _ A) as (e & it & He & (_ & _ & E3 & E4) & D & _); [congruence|].
    assert (ev_kind e = DMessage i) as Ke by (rewrite <- K, D; reflexivity).
    destruct e; try discriminate. cbn in Ke, E3. inversion Ke; subst.
    pose proof (message_id X p I fs p1 (p1_NI p fs p1 H1) (p1_later X p I fs Hu p1 H1) _ _ _ _ _ _ He) as Q.
    rewrite <- (ri_mids _ _ _ _ _ _ (final_RI X SO p I fs Hu p1 H1 fuel p2 H2)) in Q. unfold mids in Q. rewrite nth_error_map in Q.
    destruct (nth_error (p_messages p2) i) as [mi|] eqn:M; [|discriminate]. cbn in Q. apply Some_inj in Q. exists mi. split; [exact M|]. rewrite Q. reflexivity.
  Qed.
  Lemma named_enum tr full a r n d i : resolve_name tr nm full a r = RFound n d -> d_kind d = DEnum i -> enum_named p2 i n.
  Proof.
    intros R K. apply resolve_visible in R. destruct R as [A _].
    destruct (found_event X p I fs p1 (p1_NI p fs p1 H1) _ _ A) as (e & it & He & (_ & _ & E3 & E4) & D & _); [congruence|].
    assert (ev_kind e = DEnum i) as Ke by (rewrite <- K, D; reflexivity).
    destruct e; try discriminate. cbn in Ke, E3. inversion Ke; subst.
    pose proof (enum_id X p I fs p1 (p1_NI p fs p1 H1) (p1_later X p I fs Hu p1 H1) _ _ _ _ _ _ He) as Q.
    rewrite <- (ri_eids _ _ _ _ _ _ (final_RI X SO p I fs Hu p1 H1 fuel p2 H2)) in Q. unfold eids in Q. rewrite nth_error_map in Q.
    destruct (nth_error (p_enums p2) i) as [mi|] eqn:M; [|discriminate]. cbn in Q. apply Some_inj in Q. exists mi. split; [exact M|]. rewrite Q. reflexivity.
  Qed.
  Lemma type_shown tr full x x' k : type_written nm tr full x x' -> type_spec nm tr (fp_type x) (fp_type_name x) full k -> type_given p2 k x x'.
  Proof.
    intros [T|(N & n & d & R & T1 & T2)] S; [left; exact T|right]. split; [exact N|]. exists n. split; [exact T1|].
    unfold type_spec in S. destruct (fp_type_name x) as [|c s]; [contradiction|]. destruct S as (n' & d' & R' & S). rewrite R in R'. injection R' as <- <-.
    destruct S as [(i & K & E)|(i & K & E)].
    - pose proof (named_message _ _ _ _ _ _ _ R K) as Nm. unfold type_of_def in T2. rewrite K in T2.
      destruct (fp_type x) eqn:Ty; first [right; left; exists i; split; [exact E|]; split; [exact Nm|]; split; [reflexivity|exact T2] |
        left; exists i; split; [exact E|]; split; [exact Nm|]; split; [discriminate|exact T2]].
    - pose proof (named_enum _ _ _ _ _ _ _ R K) as Nm. unfold type_of_def in T2. rewrite K in T2. right. right. exists i. split; [exact E|]. split; [exact Nm|].
      destruct (fp_type x) eqn:Ty; first [right; split; [reflexivity|exact T2]|left; split; [discriminate|exact T2]].
  Qed.
  Lemma message_shown tr full a b i : ref_written nm tr full a b -> message_spec nm tr full a i -> exists n, message_named p2 i n /\ b = dot :: n.
  Proof.
    intros (n & d & R & ->) (n' & d' & R' & K). rewrite R in R'. injection R' as <- <-. exists n. split; [|reflexivity]. eapply named_message; eassumption.
  Qed.

  Lemma back_given j f r : nth_error fs j = Some f -> nth_error out j = Some r -> file_given p2 (base + j) f r.
  Proof.
    intros Hf Hr. assert (forall path n it, declares_name f path n it -> exists q e, nth_error evs q = Some e /\ is_event e (base + j) path n it) as Hev.
    { intros path n it (scope & D & ->). destruct (declared_visited fs o j f path scope it Hf D) as (e & He & Q).
      apply In_nth_error in He. destruct He as [q He]. exists q, e. split; [exact He|exact Q]. }
    constructor.
    - assert (nth_error (map blank_file out) j = nth_error (map blank_file fs) j) as Q by (rewrite back_blank; reflexivity).
      rewrite !nth_error_map, Hf, Hr in Q. cbn in Q. apply Some_inj in Q. exact Q.
    - intros path n x D. destruct (Hev _ _ _ D) as (q & e & Hq & E1 & E2 & E3 & E4).
      destruct e as [| |pa fu f' m i y| | | | | |]; try discriminate. cbn in E1, E2, E3, E4. injection E4 as ->. subst pa fu f'.
      destruct (partner_field _ _ _ _ _ _ _ Hq) as (x' & j' & r' & g2 & _ & P1 & P2 & P3 & P4 & W1 & W2 & W3 & W4).
      assert (j' = j) as -> by lia. rewrite Hr in P2. apply Some_inj in P2. subst r'. exists x'. split; [exact P3|].
      destruct (final_field X SO p I fs Hu p1 H1 fuel p2 H2 _ _ _ _ _ _ (nth_error_In _ _ Hq)) as (mi & fi & g & k & d & F1 & F2 & F3 & F4 & ->).
      rewrite P4 in F3. apply Some_inj in F3. subst g.
      exists m, mi, (field_of g2 path n (base + j) x k d). split; [exact F1|]. split; [exact F2|]. split; [reflexivity|]. split; [reflexivity|].
      split; [exact (type_shown _ _ _ _ _ W4 F4)|]. split; [exact W3|]. split; [exact W3|exact W2].
    - intros path n x D. destruct (Hev _ _ _ D) as (q & e & Hq & E1 & E2 & E3 & E4).
      destruct e as [| | | | | | | |pa fu f' m i y]; try discriminate. cbn in E1, E2, E3, E4. injection E4 as ->. subst pa fu f'.
      destruct (partner_ext _ _ _ _ _ _ _ Hq) as (x' & j' & r' & g2 & _ & P1 & P2 & P3 & P4 & W1 & W2 & W3 & b & W4 & W5).
      assert (j' = j) as -> by lia. rewrite Hr in P2. apply Some_inj in P2. subst r'. exists x'. split; [exact P3|].
      destruct (final_ext X SO p I fs Hu p1 H1 fuel p2 H2 _ _ _ _ _ _ (nth_error_In _ _ Hq)) as (xi & g & k & d & ex & F1 & F3 & F4 & F5 & ->).
      rewrite P4 in F3. apply Some_inj in F3. subst g.
      exists i, (ext_of g2 path n (base + j) m x ex k d). split; [exact F1|]. split; [reflexivity|]. split; [reflexivity|].
      split; [exact (type_shown _ _ _ _ _ W3 F4)|]. split; [exact W2|].
      destruct (message_shown _ _ _ _ _ W5 F5) as (nn & Q1 & Q2). exists nn. split; [exact Q1|]. rewrite W4, Q2. reflexivity.
    - intros path n x D. destruct (Hev _ _ _ D) as (q & e & Hq & E1 & E2 & E3 & E4).
      destruct e as [| | | | |pa fu f' m i y| | |]; try discriminate. cbn in E1, E2, E3, E4. injection E4 as ->. subst pa fu f'.
      destruct (partner_method _ _ _ _ _ _ _ Hq) as (x' & j' & r' & g2 & _ & P1 & P2 & P3 & P4 & W1 & W2 & W3).
      assert (j' = j) as -> by lia. rewrite Hr in P2. apply Some_inj in P2. subst r'. exists x'. split; [exact P3|].
      destruct (final_method X SO p I fs Hu p1 H1 fuel p2 H2 _ _ _ _ _ _ (nth_error_In _ _ Hq)) as (si & me & g & a & b & F1 & F2 & F3 & F4 & F5 & F6 & F7 & <- & <-).
      rewrite P4 in F3. apply Some_inj in F3. subst g.
      exists m, si, me. split; [exact F1|]. split; [exact F2|]. split; [exact F6|]. split; [exact F7|].
      split; [exact (message_shown _ _ _ _ _ W2 F4)|exact (message_shown _ _ _ _ _ W3 F5)].
  Qed.

  (** ** Adding the files given back in place of the files given *)
  Definition extendees_named : Prop := forall f path scope x, In f fs -> declares f path scope (IExt x) -> fp_extendee x <> None.
  Context (HE : extendees_named).

  Lemma same_ref tr (files : list file_inner) full r f a b n d : (forall g, nth_error files f = Some g -> fi_trans g = tr) ->
    resolve_name tr nm full a r = RFound n d -> b = dot :: n -> ref_same nm files f full r a b.
  Proof. intros T R -> g Hg. exists n, d. rewrite (T _ Hg). split; [exact R|]. eapply found_absolute. exact R. Qed.
  Lemma same_type tr files full f x x' : (forall g, nth_error files f = Some g -> fi_trans g = tr) ->
    type_written nm tr full x x' -> type_same nm files f full x x'.
  Proof.
    intros T [W|(N & n & d & R & W1 & W2)]; [left; exact W|right]. split; [exact N|]. split; [rewrite W1; discriminate|].
    split; [|eapply same_ref; eassumption]. rewrite W2. destruct (fp_type x); unfold type_of_def; destruct (d_kind d); split; congruence.
  Qed.
  Lemma back_same done e rest e' v1 : evs = done ++ e :: rest -> nth_error (visit o out) (length done) = Some e' ->
    fold_res (resolve_step X fuel) done (V p1 []) = Ok v1 -> same_refs (p_names (v_pool v1)) (p_files (v_pool v1)) e e'.
  Proof.
    intros Hl He' Hd. destruct (track_cut X p fs p1 fuel p2 H2 done (e :: rest) Hl) as [pa Hd']. rewrite Hd in Hd'. apply Ok_inj in Hd'. subst v1. cbn [v_pool].
    assert (nth_error evs (length done) = Some e) as Hn by (rewrite Hl, nth_error_app2, Nat.sub_diag by lia; reflexivity).
    assert (forall it, ev_item e = Some it -> p_names pa = nm /\ exists g g2 f j, nth_error (p_files pa) (ev_file_of e) = Some g /\ nth_error (p_files p2) (ev_file_of e) = Some g2 /\
      (forall full a r n d, resolve_name (fi_trans g) nm full a r = RFound n d <-> resolve_name (fi_trans g2) nm full a r = RFound n d) /\ fi_raw g = f /\
      ev_file_of e = (base + j)%nat /\ nth_error fs j = Some f /\ declares_name f (ev_path e) (ev_full e) it) as TP.
    { intros it Ei. exact (track_prefix X SO p I fs Hu p1 H1 fuel p2 H2 done e rest it pa Hl Ei Hd). }
    destruct e as [| |path full f m i x| | |path full f s i m| | |path full f par i x]; try exact Logic.I.
    - destruct (partner_field _ _ _ _ _ _ _ Hn) as (x' & j' & r' & g2 & Q & P1 & P2 & P3 & P4 & W1 & W2 & W3 & W4).
      fold o in Q. rewrite He' in Q. apply Some_inj in Q. subst e'.
      destruct (TP _ eq_refl) as (Nm & g & g2' & fl & j & G & G2 & S & Raw & Ej & Hf & (scope & D & _)). cbn [ev_file_of ev_path ev_full] in *.
      rewrite P4 in G2. apply Some_inj in G2. subst g2'. cbn [same_refs]. rewrite Nm. split; [|split; [exact W3|split; [rewrite W2; reflexivity|]]].
      + eapply (same_type (fi_trans g)); [intros g' Hg'; rewrite G in Hg'; apply Some_inj in Hg'; subst; reflexivity|].
        eapply written_type; [|exact W4]. intros. symmetry. apply S.
      + exists g. split; [exact G|]. rewrite Raw. eapply field_found. exact D.
    - destruct (partner_method _ _ _ _ _ _ _ Hn) as (x' & j' & r' & g2 & Q & P1 & P2 & P3 & P4 & W1 & (n & d & R & E) & (n' & d' & R' & E')).
      fold o in Q. rewrite He' in Q. apply Some_inj in Q. subst e'.
      destruct (TP _ eq_refl) as (Nm & g & g2' & fl & j & G & G2 & S & Raw & Ej & Hf & (scope & D & _)). cbn [ev_file_of ev_path ev_full] in *.
      rewrite P4 in G2. apply Some_inj in G2. subst g2'. cbn [same_refs]. rewrite Nm.
      assert (forall g', nth_error (p_files pa) f = Some g' -> fi_trans g' = fi_trans g) as T by (intros g' Hg'; rewrite G in Hg'; apply Some_inj in Hg'; subst; reflexivity).
      split; (eapply same_ref; [exact T|apply S; eassumption|assumption]).
    - destruct (partner_ext _ _ _ _ _ _ _ Hn) as (x' & j' & r' & g2 & Q & P1 & P2 & P3 & P4 & W1 & W2 & W3 & b & W4 & (n & d & R & E)).
      fold o in Q. rewrite He' in Q. apply Some_inj in Q. subst e'.
      destruct (TP _ eq_refl) as (Nm & g & g2' & fl & j & G & G2 & S & Raw & Ej & Hf & (scope & D & _)). cbn [ev_file_of ev_path ev_full] in *.
      rewrite P4 in G2. apply Some_inj in G2. subst g2'. cbn [same_refs]. rewrite Nm.
      assert (forall g', nth_error (p_files pa) f = Some g' -> fi_trans g' = fi_trans g) as T by (intros g' Hg'; rewrite G in Hg'; apply Some_inj in Hg'; subst; reflexivity).
      split; [|split; [|split; [exact W2|split]]].
      + eapply same_ref; [exact T|apply S; exact R|]. unfold the_extendee. rewrite W4. exact E.
      + eapply same_type; [exact T|]. eapply written_type; [|exact W3]. intros. symmetry. apply S.
      + rewrite W4. split; [|discriminate]. intros N. exfalso. exact (HE fl path scope x (nth_error_In _ _ Hf) D N).
      + exists g. split; [exact G|]. rewrite Raw. eapply ext_found. exact D.
  Qed.
  Lemma alike_refl q : pool_alike q q.
  Proof. constructor; try reflexivity. induction (p_files q) as [|g l IH]; constructor; [repeat split|exact IH]. Qed.
  Lemma back_again : exists q1 q2, fold_res names_step (visit o out) (V p []) = Ok (V q1 []) /\
    fold_res (resolve_step X fuel) (visit o out) (V q1 []) = Ok (V q2 []) /\ pool_alike p1 q1 /\ pool_alike p2 q2.
  Proof.
    assert (like any (V p []) (V p [])) as L0 by (split; [apply alike_refl|split; [reflexivity|exact Logic.I]]).
    pose proof (names_all_like _ _ _ _ back_events L0) as N. rewrite H1 in N.
    destruct (fold_res names_step (visit o out) (V p [])) as [[q1 e1]| | |]; cbn in N; try contradiction. destruct N as (A1 & E1 & _). cbn in A1, E1. subst e1.
    assert (like any (V p1 []) (V q1 [])) as L1 by (split; [exact A1|split; [reflexivity|exact Logic.I]]).
    pose proof (resolve_all_like X fuel _ _ back_events _ _ L1) as Q. rewrite H2 in Q.
    specialize (Q (fun done e rest e' v1 => back_same done e rest e' v1)).
    destruct (fold_res (resolve_step X fuel) (visit o out) (V q1 [])) as [[q2 e2]| | |] eqn:F2; cbn in Q; try contradiction. destruct Q as (A2 & E2 & _). cbn in A2, E2. subst e2.
    exists q1, q2. auto.
  Qed.

  (** ** The files given back are given back as they are *)
  Lemma back_names : map fl_name out = map fl_name fs.
  Proof. pose proof (f_equal (map fl_name) back_blank) as Q. rewrite !map_map in Q. exact Q. Qed.
  Lemma back_unknown : unknown_files p out.
  Proof.
    unfold unknown_files in *. rewrite Forall_forall in *. intros r Hr. apply (in_map fl_name) in Hr. rewrite back_names in Hr. apply in_map_iff in Hr.
    destruct Hr as (f & E & Hf). rewrite <- E. exact (Hu _ Hf).
  Qed.
  Context (q1 q2 : pool) (G1 : fold_res names_step (visit o out) (V p []) = Ok (V q1 [])) (G2 : fold_res (resolve_step X fuel) (visit o out) (V q1 []) = Ok (V q2 []))
          (A1 : pool_alike p1 q1) (A2 : pool_alike p2 q2).

  Lemma alike_file f g g' : nth_error (p_files p2) f = Some g -> nth_error (p_files q2) f = Some g' -> fi_trans g' = fi_trans g.
  Proof.
    intros E E'. destruct (F2_nth_l _ _ _ (pa_files _ _ A2) _ _ E) as (g'' & E'' & (_ & _ & T & _)). rewrite E' in E''. apply Some_inj in E''. subst. symmetry. exact T.
  Qed.
  (** the step of the walk over [fs] for a step of the walk over [out] *)
  Lemma of_event done e' rest : visit o out = done ++ e' :: rest -> exists e, nth_error evs (length done) = Some e /\ blank_event e = blank_event e' /\ nth_error (visit o out) (length done) = Some e'.
  Proof.
    intros Hl. assert (nth_error (visit o out) (length done) = Some e') as Hn by (rewrite Hl, nth_error_app2, Nat.sub_diag by lia; reflexivity).
    destruct (pair_nth _ _ _ (eq_sym back_events) _ _ Hn) as (e & He & B). exists e. auto.
  Qed.

  Lemma set_type_fixed n d x x' : fp_type_name x' = dot :: n -> fp_type x' = (match fp_type x with TGroup => TGroup | _ => type_of_def d end) -> set_type n d x' = x'.
  Proof.
    intros E1 E2. destruct x'. unfold set_type, absolute. cbn in *. subst.
    destruct (fp_type x); cbn; unfold type_of_def; destruct (d_kind d); reflexivity.
  Qed.
  Lemma type_fixed qa f g path full x x' raw : nth_error (p_files qa) f = Some g -> p_names qa = nm -> type_written nm (fi_trans g) full x x' ->
    find_file_field raw path = Some x' -> write_type qa f path full x' raw = raw.
  Proof.
    intros Hg Hq W Hx. unfold write_type. destruct W as [(_ & E & _)|(_ & n & d & R & E1 & E2)]; [rewrite E; reflexivity|].
    unfold write_ref. rewrite Hg, Hq, E1, (found_absolute _ _ _ _ _ _ _ R). eapply on_field_fixed; [exact Hx|]. eapply set_type_fixed; eassumption.
  Qed.
  Lemma json_fixed path x' j raw : fp_json x' = Some j -> write_json path x' raw = raw.
  Proof. intros E. unfold write_json. rewrite E. reflexivity. Qed.

  Lemma step_fixed done e' rest qa j r : visit o out = done ++ e' :: rest -> fold_res (resolve_step X fuel) done (V q1 []) = Ok (V qa []) ->
    ev_file_of e' = (base + j)%nat -> nth_error out j = Some r -> write_step qa e' r = r.
  Proof.
    intros Hl Hd Ej Hr. destruct (of_event _ _ _ Hl) as (e & He & B & He').
    assert (forall it, ev_item e' = Some it -> p_names qa = nm /\ exists g, nth_error (p_files qa) (ev_file_of e') = Some g /\
      forall g2, nth_error (p_files p2) (ev_file_of e') = Some g2 -> forall full a r n d, resolve_name (fi_trans g2) nm full a r = RFound n d <-> resolve_name (fi_trans g) nm full a r = RFound n d) as TP.
    { intros it Ei. destruct (track_prefix X SO p I out back_unknown q1 G1 fuel q2 G2 done e' rest it qa Hl Ei Hd) as (Nm & g & g2' & f & j' & K1 & K2 & S & _).
      assert (p_names q1 = nm) as Q by (symmetry; exact (pa_names _ _ A1)). split; [rewrite Nm; exact Q|]. exists g. split; [exact K1|].
      intros g2 K3 full a r0 n d. rewrite <- (alike_file _ _ _ K3 K2). rewrite Q in S. symmetry. apply S. }
    destruct e' as [| |path full f m i x'| | |path full f s i m'| | |path full f par i x']; try reflexivity.
    - destruct e as [| |pa fu f' m0 i' y| | | | | |]; try discriminate. cbn [blank_event] in B.
      assert (pa = path /\ fu = full /\ f' = f /\ m0 = m /\ i' = i) as (-> & -> & -> & -> & ->) by (repeat split; congruence). clear B.
      destruct (partner_field _ _ _ _ _ _ _ He) as (x'' & j' & r' & g2 & Q & P1 & P2 & P3 & P4 & W1 & W2 & W3 & W4).
      fold o in Q. rewrite He' in Q. apply Some_inj in Q. injection Q as <-. cbn [ev_file_of] in *. assert (j' = j) as -> by lia. rewrite Hr in P2. apply Some_inj in P2. subst r'.
      destruct (TP _ eq_refl) as (Nm & g & K & S). destruct P3 as (scope & D & _). pose proof (field_found _ _ _ _ D) as Hx.
      cbn [write_step]. rewrite (json_fixed _ _ _ _ W3). eapply type_fixed; [exact K|exact Nm| |exact Hx]. eapply written_type; [|exact W4]. exact (S _ P4).
    - destruct e as [| | | | |pa fu f' m0 i' y| | |]; try discriminate. cbn [blank_event] in B.
      assert (pa = path /\ fu = full /\ f' = f /\ m0 = s /\ i' = i) as (-> & -> & -> & -> & ->) by (repeat split; congruence). clear B.
      destruct (partner_method _ _ _ _ _ _ _ He) as (x'' & j' & r' & g2 & Q & P1 & P2 & P3 & P4 & W1 & (n & d & R & E) & (n' & d' & R' & E')).
      fold o in Q. rewrite He' in Q. apply Some_inj in Q. injection Q as <-. cbn [ev_file_of] in *. assert (j' = j) as -> by lia. rewrite Hr in P2. apply Some_inj in P2. subst r'.
      destruct (TP _ eq_refl) as (Nm & g & K & S). destruct P3 as (scope & D & _). pose proof (method_found _ _ _ _ D) as Hx.
      apply (S _ P4) in R. apply (S _ P4) in R'. cbn [write_step]. unfold write_ref. rewrite K, Nm, E, E', (found_absolute _ _ _ _ _ _ _ R), (found_absolute _ _ _ _ _ _ _ R').
      rewrite (on_method_fixed (set_input n) path r m' Hx); [|destruct m'; unfold set_input, absolute; cbn in *; congruence].
      apply (on_method_fixed (set_output n') path r m' Hx). destruct m'; unfold set_output, absolute; cbn in *; congruence.
    - destruct e as [| | | | | | | |pa fu f' m0 i' y]; try discriminate. cbn [blank_event] in B.
      assert (pa = path /\ fu = full /\ f' = f /\ m0 = par /\ i' = i) as (-> & -> & -> & -> & ->) by (repeat split; congruence). clear B.
      destruct (partner_ext _ _ _ _ _ _ _ He) as (x'' & j' & r' & g2 & Q & P1 & P2 & P3 & P4 & W1 & W2 & W3 & b & W4 & (n & d & R & E)).
      fold o in Q. rewrite He' in Q. apply Some_inj in Q. injection Q as <-. cbn [ev_file_of] in *. assert (j' = j) as -> by lia. rewrite Hr in P2. apply Some_inj in P2. subst r'.
      destruct (TP _ eq_refl) as (Nm & g & K & S). destruct P3 as (scope & D & _). pose proof (ext_found _ _ _ _ D) as Hx.
      cbn [write_step]. rewrite (json_fixed _ _ _ _ W2), W4. apply (S _ P4) in R.
      unfold write_ref at 1. rewrite K, Nm, E, (found_absolute _ _ _ _ _ _ _ R), (on_field_fixed (set_extendee n) path r x' Hx);
        [|destruct x'; unfold set_extendee, absolute; cbn in *; congruence].
      eapply type_fixed; [exact K|exact Nm| |exact Hx]. eapply written_type; [|exact W3]. exact (S _ P4).
  Qed.
  Lemma raws_fixed todo : forall done qa, visit o out = done ++ todo -> fold_res (resolve_step X fuel) done (V q1 []) = Ok (V qa []) ->
    resolve_raws X fuel base todo (V qa []) out = Ok out.
  Proof.
    induction todo as [|e todo IH]; intros done qa Hl Hd; [reflexivity|]. cbn [resolve_raws].
    assert (visit o out = (done ++ [e]) ++ todo) as Hl' by (rewrite <- app_assoc; exact Hl).
    destruct (track_cut X p out q1 fuel q2 G2 (done ++ [e]) todo Hl') as [qb Hb]. pose proof Hb as Hb'. apply cut_fold in Hb'. destruct Hb' as (v1 & B1 & B2).
    rewrite Hd in B1. apply Ok_inj in B1. subst v1. cbn [fold_res] in B2. apply rbind_ok in B2. destruct B2 as (v2 & B2 & B3). apply Ok_inj in B3. subst v2.
    rewrite B2. cbn [rbind v_pool]. assert (upd (file_of_event e - base) (write_step qa e) out = out) as ->; [|exact (IH _ _ Hl' Hb)].
    assert (In e (visit o out)) as He by (rewrite Hl; apply in_or_app; right; left; reflexivity).
    pose proof (track_base p out e He) as Lb. fold base in Lb. rewrite file_of_same. apply upd_fixed. intros r Hr. eapply (step_fixed done e todo qa (ev_file_of e - base)); try eassumption. lia.
  Qed.
  Lemma back_fixed : given_back X fuel p out = Ok out.
  Proof. unfold given_back. fold o. rewrite G1. cbn [rbind]. exact (raws_fixed (visit o out) [] q1 eq_refl eq_refl). Qed.
End Back.
