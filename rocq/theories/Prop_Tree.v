(** From descriptors to their parents, children and descriptor protos (C72). *)
From Coq Require Import String.
From Verif Require Import Base BaseProofs Value Descr Proto Build VisitProofs EventProofs BuildFrame BuildNames BuildQuiet BuildResolve BuildInv DeclSpec DeclProofs PoolFacts WalkOnce ExampleFiles Prop_Pool Prop_Accepts Raw RawSpec RawWalk RawTrack Prop_GivenBack Nav NavProofs.
From Coq Require Import List Lia ZArith NArith.
Import ListNotations.
Local Open Scope list_scope.

(** ** A pool with the descriptor protos it shows *)

(** [shows X p raws]: after some calls, failed ones included, the pool is [p]
    and the files it gives back are [raws] *)
Inductive shows (X : externs) : pool -> list file -> Prop :=
| sh_empty : shows X empty_pool []
| sh_built fuel p raws files p' back : shows X p raws -> plain files ->
    build_files X fuel p files = Built p' -> given_back X fuel p (unknown p files) = Ok back ->
    shows X p' (raws ++ back)
| sh_rejected fuel p raws files p' es : shows X p raws -> plain files ->
    build_files X fuel p files = Rejected p' es -> shows X p' raws.

Lemma shows_reachable X p raws : shows X p raws -> reachable X p.
Proof. induction 1; [constructor|eapply re_built; eassumption|eapply re_rejected; eassumption]. Qed.
Lemma shows_copies X p raws : search_ok X -> shows X p raws -> map blank_file (pool_files p) = map blank_file raws.
Proof.
  intros SO. induction 1 as [|fuel p raws files p' back S IH P H G|fuel p raws files p' es S IH P H]; [reflexivity| |].
  - pose proof (reachable_Inv _ _ SO (shows_reachable _ _ _ S)) as I.
    rewrite (built_files X SO _ _ _ _ I H), !map_app, IH. f_equal. rewrite <- (unknown_dedup X p files I).
    unfold given_back in G. apply rbind_ok in G. destruct G as (v & _ & G). symmetry. exact (raws_blank _ _ _ _ _ _ _ G).
  - pose proof (reachable_Inv _ _ SO (shows_reachable _ _ _ S)) as I.
    pose proof (rejected_same X _ _ _ _ _ I P H) as (_ & _ & E & _). unfold pool_files. rewrite E. exact IH.
Qed.
(** every pool has such files *)
Lemma shows_all X p : search_ok X -> reachable X p -> exists raws, shows X p raws.
Proof.
  intros SO. induction 1 as [|fuel p fs p' R (raws & S) P H|fuel p fs p' es R (raws & S) P H].
  - exists []. constructor.
  - destruct (C63_given_back _ _ _ _ _ SO R H) as (back & G & _). exists (raws ++ back). eapply sh_built; eassumption.
  - exists raws. eapply sh_rejected; eassumption.
Qed.

(** ** C72, the descriptor protos *)

(** in the files shown, [it] is what is declared where [id] says, under its
    full name *)
Definition shown_at (raws : list file) (id : ident) (it : item) : Prop :=
  exists f, nth_error raws (id_file id) = Some f /\ declares_name f (id_path id) (id_full id) it /\ id_name id = item_name it.

Lemma last_two_inj (q q' : list Z) t t' i i' : q ++ [t; i] = q' ++ [t'; i'] -> q = q' /\ t = t' /\ i = i'.
Proof.
  intros E. apply (f_equal (@rev Z)) in E. rewrite !last_two in E. injection E as -> -> E.
  apply (f_equal (@rev Z)) in E. rewrite !rev_involutive in E. auto.
Qed.
Lemma dotted_inj a c n : dotted a n = dotted c n -> a = c.
Proof.
  unfold dotted. destruct a as [|x a], c as [|y c]; auto; intros E.
  - apply (f_equal (@length N)) in E. rewrite !app_length in E. cbn in E. lia.
  - apply (f_equal (@length N)) in E. rewrite !app_length in E. cbn in E. lia.
  - rewrite !app_assoc in E. apply app_inv_tail in E. apply app_inv_tail in E. congruence.
Qed.

Section Tree.
  Context (X : externs) (p : pool) (rs : list file) (SO : search_ok X) (I : Inv X p)
    (C : map blank_file (pool_files p) = map blank_file rs).

  Lemma copy_of k f : nth_error (pool_files p) k = Some f -> exists f', nth_error rs k = Some f' /\ blank_file f = blank_file f'.
  Proof. intros H. exact (alike_nth _ _ _ _ _ C H). Qed.
  Lemma copy_from k f' : nth_error rs k = Some f' -> exists f, nth_error (pool_files p) k = Some f /\ blank_file f = blank_file f'.
  Proof. intros H. destruct (alike_nth _ _ _ _ _ (eq_sym C) H) as (f & H' & E). eauto. Qed.
  Lemma mk_shown k f path scope it : nth_error rs k = Some f -> declares f path scope it ->
    forall name, name = item_name it -> shown_at rs (mk_id k path (dotted scope name) name) it.
  Proof. intros H D name ->. exists f. split; [exact H|]. split; [exists scope; auto|]. apply id_name_mk. Qed.

  (** the event of a message of the pool, and where it is *)
  Lemma message_event i mi : nth_error (p_messages p) i = Some mi ->
    exists k f path scope m, In (EvMessage path (dotted scope (dp_name m)) k (m_parent mi) i m) (pool_events p) /\
      nth_error (pool_files p) k = Some f /\ message_at f path scope m /\
      m_id mi = mk_id k path (dotted scope (dp_name m)) (dp_name m).
  Proof.
    intros Hm. assert (nth_error (all_ids DkMessage p) i = Some (m_id mi)) as Hid by (cbn; rewrite nth_error_map, Hm; reflexivity).
    destruct (index_event X _ _ _ _ I Hid) as [e [He Hk]]. destruct e; try discriminate. cbn in Hk. apply Some_inj in Hk. subst index.
    destruct (iv_msgs _ _ I _ _ _ _ _ _ He) as [mi' [A [B [P _]]]]. rewrite Hm in A. apply Some_inj in A. subst mi'.
    destruct (event_declared _ _ _ He eq_refl) as (f & scope & Hf & D & Ef). cbn in Hf, D, Ef. inversion D; subst.
    exists file, f, path, scope, m. auto.
  Qed.
  Lemma enum_event i ei : nth_error (p_enums p) i = Some ei ->
    exists k f path scope e, In (EvEnum path (dotted scope (ep_name e)) k (e_parent ei) i e) (pool_events p) /\
      nth_error (pool_files p) k = Some f /\ enum_at f path scope e /\
      e_id ei = mk_id k path (dotted scope (ep_name e)) (ep_name e).
  Proof.
    intros Hm. assert (nth_error (all_ids DkEnum p) i = Some (e_id ei)) as Hid by (cbn; rewrite nth_error_map, Hm; reflexivity).
    destruct (index_event X _ _ _ _ I Hid) as [e [He Hk]]. destruct e; try discriminate. cbn in Hk. apply Some_inj in Hk. subst index.
    destruct (iv_enums _ _ I _ _ _ _ _ _ He) as [mi' [A [B [P _]]]]. rewrite Hm in A. apply Some_inj in A. subst mi'.
    destruct (event_declared _ _ _ He eq_refl) as (f & scope & Hf & D & Ef). cbn in Hf, D, Ef. inversion D; subst.
    exists file, f, path, scope, e. auto.
  Qed.
  Lemma ext_event i xi : nth_error (p_exts p) i = Some xi ->
    exists k f path scope x, In (EvExt path (dotted scope (fp_name x)) k (x_parent xi) i x) (pool_events p) /\
      nth_error (pool_files p) k = Some f /\ declares f path scope (IExt x) /\
      x_id xi = mk_id k path (dotted scope (fp_name x)) (fp_name x).
  Proof.
    intros Hm. assert (nth_error (all_ids DkExtension p) i = Some (x_id xi)) as Hid by (cbn; rewrite nth_error_map, Hm; reflexivity).
    destruct (index_event X _ _ _ _ I Hid) as [e [He Hk]]. destruct e; try discriminate. cbn in Hk. apply Some_inj in Hk. subst index.
    destruct (iv_exts _ _ I _ _ _ _ _ _ He) as [mi' [n0 [A [_ B]]]]. rewrite Hm in A. apply Some_inj in A. subst mi'.
    destruct B as (g & ex & k & d & _ & _ & _ & _ & _ & ->).
    destruct (event_declared _ _ _ He eq_refl) as (f' & scope & Hf & D & Ef). cbn in Hf, D, Ef. subst full.
    exists file, f', path, scope, x. auto.
  Qed.
  Lemma service_event i si : nth_error (p_services p) i = Some si ->
    exists k f n s names0, In (EvService [6%Z; pos n] (dotted (fl_package f) (sp_name s)) k i s) (pool_events p) /\
      nth_error (pool_files p) k = Some f /\ nth_error (fl_services f) n = Some s /\
      s_id si = mk_id k [6%Z; pos n] (dotted (fl_package f) (sp_name s)) (sp_name s) /\
      Forall2 (mspec names0 p) (kids 2 i (pool_events p)) (s_methods si).
  Proof.
    intros Hm. assert (nth_error (all_ids DkService p) i = Some (s_id si)) as Hid by (cbn; rewrite nth_error_map, Hm; reflexivity).
    destruct (index_event X _ _ _ _ I Hid) as [e [He Hk]]. destruct e; try discriminate. cbn in Hk. apply Some_inj in Hk. subst index.
    destruct (iv_svcs _ _ I _ _ _ _ _ He) as [mi' [n0 [A [B [_ F]]]]]. rewrite Hm in A. apply Some_inj in A. subst mi'.
    destruct (event_declared _ _ _ He eq_refl) as (f & scope & Hf & D & Ef). cbn in Hf, D, Ef. inversion D; subst.
    exists file, f, j, s, n0. auto 6.
  Qed.
  Lemma kids_of h k i l : In h (pool_events p) -> In (k, i, l) (heads h) -> kids k i (pool_events p) = l.
  Proof. intros H Q. exact (proj1 (proj2 (visit_cc off0 (raws p)) h H) k i l Q). Qed.

  Lemma message_shown i mi : nth_error (p_messages p) i = Some mi ->
    exists k f f' path scope m m', In (EvMessage path (dotted scope (dp_name m)) k (m_parent mi) i m) (pool_events p) /\
      nth_error (pool_files p) k = Some f /\ message_at f path scope m /\
      m_id mi = mk_id k path (dotted scope (dp_name m)) (dp_name m) /\
      nth_error rs k = Some f' /\ message_at f' path scope m' /\ blank_message m = blank_message m' /\
      descriptor_proto rs mi = Ok m'.
  Proof.
    intros H. destruct (message_event i mi H) as (k & f & path & scope & m & He & Hf & M & E).
    destruct (copy_of _ _ Hf) as (f' & Hf' & B). destruct (message_copy _ _ _ _ _ B M) as (m' & M' & Bm).
    exists k, f, f', path, scope, m, m'. repeat (split; [assumption|]).
    unfold descriptor_proto, file_proto. rewrite E. cbn [mk_id id_file id_path]. rewrite Hf'. cbn [need rbind].
    destruct (message_found _ _ _ _ M') as [Q _]. rewrite Q. reflexivity.
  Qed.
  Lemma end_of q t n : path_end (q ++ [t; pos n]) = Ok (pos n).
  Proof. unfold path_end. rewrite last_two. reflexivity. Qed.
  Lemma index_pos {A} (l : list A) n a : nth_error l n = Some a -> index l (pos n) = Ok a.
  Proof. intros H. unfold index, pos. rewrite Nat2Z.id, H. reflexivity. Qed.

  Lemma fields_shown i mi v : nth_error (p_messages p) i = Some mi -> In v (m_fields mi) ->
    exists y, field_descriptor_proto rs mi v = Ok y /\ shown_at rs (f_id v) (IField y).
  Proof.
    intros H Hv. destruct (message_shown i mi H) as (k & f & f' & path & scope & m & m' & He & Hf & M & E & Hf' & M' & B & D).
    destruct (iv_msgs _ _ I _ _ _ _ _ _ He) as (mi' & A & _ & _ & _ & _ & (n0 & _ & F) & _). rewrite H in A. apply Some_inj in A. subst mi'.
    apply In_nth_error in Hv. destruct Hv as (n & Hn). destruct (F2_nth_r _ _ _ (fo_fields _ _ _ _ _ _ F) _ _ Hn) as (e & Ke & Sp).
    rewrite (kids_of _ 0 i _ He (or_introl eq_refl)) in Ke. unfold g_fields in Ke. rewrite mapi_nth in Ke. cbn [plus] in Ke.
    destruct (nth_error (dp_fields m) n) as [x|] eqn:Ex; [|discriminate]. cbn in Ke. apply Some_inj in Ke. subst e.
    destruct Sp as (g & kd & d & _ & _ & _ & _ & _ & ->).
    destruct (blank_message_parts _ _ B) as (En & Efs & _). destruct (alike_nth _ _ _ _ _ Efs Ex) as (y & Ey & By).
    assert (fp_name x = fp_name y) as N by (apply (f_equal fp_name) in By; exact By).
    exists y. split.
    - unfold field_descriptor_proto. rewrite D. cbn [rbind f_id field_of mk_id id_path]. rewrite end_of. cbn [rbind]. apply index_pos. exact Ey.
    - cbn [f_id field_of]. rewrite <- dotted_join, En. apply (mk_shown _ f'); [exact Hf'| |exact N]. eapply de_field; eassumption.
  Qed.
  Lemma oneofs_shown i mi n o : nth_error (p_messages p) i = Some mi -> nth_error (m_oneofs mi) n = Some o ->
    exists y, oneof_descriptor_proto rs mi n = Ok y /\ shown_at rs (o_id o) (IOneof y).
  Proof.
    intros H Hn. destruct (message_shown i mi H) as (k & f & f' & path & scope & m & m' & He & Hf & M & E & Hf' & M' & B & D).
    destruct (iv_msgs _ _ I _ _ _ _ _ _ He) as (mi' & A & _ & _ & _ & Q & _). rewrite H in A. apply Some_inj in A. subst mi'.
    rewrite (kids_of _ 1 i _ He (or_intror (or_introl eq_refl))) in Q. unfold g_oneofs in Q. rewrite mapi_map in Q.
    pose proof (f_equal (fun l => nth_error l n) Q) as Qn. cbn beta in Qn. rewrite nth_error_map, Hn, mapi_nth in Qn. cbn [option_map plus] in Qn.
    destruct (nth_error (dp_oneofs m) n) as [x|] eqn:Ex; [|discriminate]. cbn in Qn. apply Some_inj in Qn.
    destruct (blank_message_parts _ _ B) as (En & _ & _ & _ & _ & Eo). rewrite Eo in Ex.
    exists x. split.
    - unfold oneof_descriptor_proto. rewrite D. cbn [rbind]. rewrite Ex. reflexivity.
    - rewrite Qn, <- dotted_join, En. apply (mk_shown _ f'); [exact Hf'| |reflexivity]. eapply de_oneof; eassumption.
  Qed.
  Lemma enum_shown i ei : nth_error (p_enums p) i = Some ei ->
    exists k f f' path scope e, In (EvEnum path (dotted scope (ep_name e)) k (e_parent ei) i e) (pool_events p) /\
      nth_error (pool_files p) k = Some f /\ enum_at f path scope e /\ e_id ei = mk_id k path (dotted scope (ep_name e)) (ep_name e) /\
      nth_error rs k = Some f' /\ enum_at f' path scope e /\ enum_descriptor_proto rs ei = Ok e.
  Proof.
    intros H. destruct (enum_event i ei H) as (k & f & path & scope & e & He & Hf & M & E).
    destruct (copy_of _ _ Hf) as (f' & Hf' & B). pose proof (enum_copy _ _ _ _ _ B M) as M'.
    exists k, f, f', path, scope, e. repeat (split; [assumption|]).
    unfold enum_descriptor_proto, file_proto. rewrite E. cbn [mk_id id_file id_path]. rewrite Hf'. cbn [need rbind].
    destruct M' as [j e H'|path scope m j e Mm H']; [apply element_top; exact H'|exact (element_inner 5 4 _ _ _ _ _ _ _ _ Mm H')].
  Qed.
  Lemma values_shown i ei n v : nth_error (p_enums p) i = Some ei -> nth_error (e_values ei) n = Some v ->
    exists y, enum_value_descriptor_proto rs ei n = Ok y /\ shown_at rs (ev_id v) (IValue y).
  Proof.
    intros H Hn. destruct (enum_shown i ei H) as (k & f & f' & path & scope & e & He & Hf & M & E & Hf' & M' & D).
    destruct (iv_enums _ _ I _ _ _ _ _ _ He) as (ei' & A & _ & _ & Q & _). rewrite H in A. apply Some_inj in A. subst ei'.
    destruct (proj2 (proj2 (visit_cc off0 (raws p)) _ He) i _ eq_refl) as (sc & K). change (visit off0 (raws p)) with (pool_events p) in K.
    rewrite K in Q. unfold g_values in Q. rewrite mapi_map in Q. rewrite Q, mapi_nth in Hn. cbn [plus] in Hn.
    destruct (nth_error (ep_values e) n) as [x|] eqn:Ex; [|discriminate]. cbn in Hn. apply Some_inj in Hn. subst v.
    assert (In (EvEnumValue (path ++ [2%Z; zn n]) (join_scope sc (fst x)) k i n x) (pool_events p)) as Hx.
    { assert (In (EvEnumValue (path ++ [2%Z; zn n]) (join_scope sc (fst x)) k i n x) (kids 3 i (pool_events p))) as Q'.
      { rewrite K. unfold g_values. apply (mapi_incl (fun j v => EvEnumValue (path ++ [2%Z; zn j]) (join_scope sc (fst v)) k i j v) _ 0 n x Ex). }
      apply kids_in in Q'. exact (proj1 Q'). }
    destruct (event_declared _ _ _ Hx eq_refl) as (f0 & s0 & Hf0 & D0 & Ef0). cbn in Hf0, D0, Ef0. rewrite Hf in Hf0. apply Some_inj in Hf0. subst f0.
    assert (s0 = scope) as ->.
    { inversion D0 as [| | | | | |path' s' e' j' x' M0 H0 Ep| |]; subst. destruct (last_two_inj _ _ _ _ _ _ Ep) as (-> & _ & _).
      destruct (declared_event _ _ _ _ _ _ Hf (de_enum _ _ _ _ M0)) as (e1 & H1 & E1 & E2 & E3 & E4).
      assert (e1 = EvEnum path (dotted scope (ep_name e)) k (e_parent ei) i e) as -> by (apply (visit_same off0 (raws p)); [exact H1|exact He|unfold place; rewrite E1, E2; reflexivity]).
      cbn in E3, E4. assert (e = e') as <- by congruence. exact (dotted_inj _ _ _ (eq_sym E3)). }
    exists x. split.
    - unfold enum_value_descriptor_proto. rewrite D. cbn [rbind]. rewrite Ex. reflexivity.
    - cbn [mk_value ev_id]. rewrite Ef0. apply (mk_shown _ f'); [exact Hf'| |reflexivity]. eapply de_value; eassumption.
  Qed.
  Lemma exts_shown i xi : nth_error (p_exts p) i = Some xi ->
    exists y, ext_descriptor_proto rs xi = Ok y /\ shown_at rs (x_id xi) (IExt y).
  Proof.
    intros H. destruct (ext_event i xi H) as (k & f & path & scope & x & He & Hf & D & E).
    destruct (copy_of _ _ Hf) as (f' & Hf' & B).
    assert (exists y, fp_name x = fp_name y /\ declares f' path scope (IExt y) /\ element 7 6 fl_exts dp_exts f' path = Ok y) as (y & N & D' & Q).
    { inversion D as [| | |path0 scope0 m j x0 M Hx|j x0 Hx| | | |]; subst.
      - destruct (message_copy _ _ _ _ _ B M) as (m' & M' & Bm). destruct (blank_message_parts _ _ Bm) as (En & _ & Ee & _).
        destruct (alike_nth _ _ _ _ _ Ee Hx) as (y & Ey & By). exists y. split; [apply (f_equal fp_name) in By; exact By|].
        rewrite En. split; [eapply de_ext; eassumption|exact (element_inner 7 6 _ _ _ _ _ _ _ _ M' Ey)].
      - destruct (blank_file_parts _ _ B) as (Ep & _ & _ & _ & Ee). destruct (alike_nth _ _ _ _ _ Ee Hx) as (y & Ey & By). exists y.
        split; [apply (f_equal fp_name) in By; exact By|]. rewrite Ep. split; [apply de_ext_top; exact Ey|apply element_top; exact Ey]. }
    exists y. split.
    - unfold ext_descriptor_proto, file_proto. rewrite E. cbn [mk_id id_file id_path]. rewrite Hf'. exact Q.
    - rewrite E. apply (mk_shown _ f'); assumption.
  Qed.
  Lemma service_shown i si : nth_error (p_services p) i = Some si ->
    exists s', service_descriptor_proto rs si = Ok s' /\ shown_at rs (s_id si) (IService s') /\
      forall n v, nth_error (s_methods si) n = Some v -> exists y, method_descriptor_proto rs si n = Ok y /\ shown_at rs (me_id v) (IMethod y).
  Proof.
    intros H. destruct (service_event i si H) as (k & f & j & s & n0 & He & Hf & Hs & E & F).
    destruct (copy_of _ _ Hf) as (f' & Hf' & B). destruct (blank_file_parts _ _ B) as (Ep & _ & _ & Es & _).
    destruct (alike_nth _ _ _ _ _ Es Hs) as (s' & Hs' & Bs). assert (sp_name s = sp_name s') as N by (apply (f_equal sp_name) in Bs; exact Bs).
    assert (map blank_method (sp_methods s) = map blank_method (sp_methods s')) as Bm by (apply (f_equal sp_methods) in Bs; exact Bs).
    assert (service_descriptor_proto rs si = Ok s') as Q.
    { unfold service_descriptor_proto. rewrite E. cbn [mk_id id_file id_path]. change [6%Z; pos j] with ([] ++ [6%Z; pos j]). rewrite end_of. cbn [rbind].
      unfold file_proto. rewrite Hf'. cbn [need rbind]. apply index_pos. exact Hs'. }
    exists s'. split; [exact Q|]. split; [rewrite E, Ep; apply (mk_shown _ f'); [exact Hf'|apply de_service; exact Hs'|exact N]|].
    intros n v Hv. destruct (F2_nth_r _ _ _ F _ _ Hv) as (e & Ke & Sp).
    rewrite (kids_of _ 2 i _ He (or_introl eq_refl)) in Ke. unfold g_methods in Ke. rewrite mapi_nth in Ke. cbn [plus] in Ke.
    destruct (nth_error (sp_methods s) n) as [x|] eqn:Ex; [|discriminate]. cbn in Ke. apply Some_inj in Ke. subst e.
    destruct Sp as (g & inp & out & _ & _ & _ & ->). destruct (alike_nth _ _ _ _ _ Bm Ex) as (y & Ey & By).
    assert (mp_name x = mp_name y) as Nm by (apply (f_equal mp_name) in By; exact By).
    exists y. split.
    - unfold method_descriptor_proto. rewrite Q. cbn [rbind]. rewrite Ey. reflexivity.
    - cbn [me_id]. rewrite <- dotted_join, N, Ep. apply (mk_shown _ f'); [exact Hf'| |exact Nm].
      exact (de_method f' j s' n y Hs' Ey).
  Qed.
End Tree.

(** Every descriptor of the pool gives the descriptor proto that it comes from:
    what the files shown by the pool declare at the path of the descriptor,
    under its full name.  It never panics. *)
Theorem C72_descriptor_protos X p rs : search_ok X -> shows X p rs ->
  (forall i m, nth_error (p_messages p) i = Some m ->
     (exists d, descriptor_proto rs m = Ok d /\ shown_at rs (m_id m) (IMessage d)) /\
     (forall v, In v (m_fields m) -> exists d, field_descriptor_proto rs m v = Ok d /\ shown_at rs (f_id v) (IField d)) /\
     (forall n o, nth_error (m_oneofs m) n = Some o ->
        exists d, oneof_descriptor_proto rs m n = Ok d /\ shown_at rs (o_id o) (IOneof d))) /\
  (forall i e, nth_error (p_enums p) i = Some e ->
     (exists d, enum_descriptor_proto rs e = Ok d /\ shown_at rs (e_id e) (IEnum d)) /\
     (forall n v, nth_error (e_values e) n = Some v ->
        exists d, enum_value_descriptor_proto rs e n = Ok d /\ shown_at rs (ev_id v) (IValue d))) /\
  (forall i x, nth_error (p_exts p) i = Some x ->
     exists d, ext_descriptor_proto rs x = Ok d /\ shown_at rs (x_id x) (IExt d)) /\
  (forall i s, nth_error (p_services p) i = Some s ->
     (exists d, service_descriptor_proto rs s = Ok d /\ shown_at rs (s_id s) (IService d)) /\
     (forall n v, nth_error (s_methods s) n = Some v ->
        exists d, method_descriptor_proto rs s n = Ok d /\ shown_at rs (me_id v) (IMethod d))).
Proof.
  intros SO S. pose proof (reachable_Inv _ _ SO (shows_reachable _ _ _ S)) as I. pose proof (shows_copies _ _ _ SO S) as C.
  split; [|split; [|split]].
  - intros i m H. split; [|split].
    + destruct (message_shown X p rs I C i m H) as (k & f & f' & path & scope & d & d' & _ & _ & _ & E & Hf' & M' & B & D).
      exists d'. split; [exact D|]. rewrite E. destruct (blank_message_parts _ _ B) as (N & _).
      apply (mk_shown rs k f'); [exact Hf'|constructor; exact M'|exact N].
    + intros v Hv. exact (fields_shown X p rs I C i m v H Hv).
    + intros n o Hn. exact (oneofs_shown X p rs I C i m n o H Hn).
  - intros i e H. split.
    + destruct (enum_shown X p rs I C i e H) as (k & f & f' & path & scope & d & _ & _ & _ & E & Hf' & M' & D).
      exists d. split; [exact D|]. rewrite E. apply (mk_shown rs k f'); [exact Hf'|constructor; exact M'|reflexivity].
    + intros n v Hn. exact (values_shown X p rs I C i e n v H Hn).
  - intros i x H. exact (exts_shown X p rs I C i x H).
  - intros i s H. destruct (service_shown X p rs I C i s H) as (s' & A & B & M). split; [exists s'; auto|exact M].
Qed.
Print Assumptions C72_descriptor_protos.

(** ** C72, parents and children *)

(** parent_message of the definition number [c] of its kind; a service has none *)
Definition parent_of (K : dk) (p : pool) (c : nat) : option (option nat) :=
  match K with
  | DkMessage => option_map m_parent (nth_error (p_messages p) c)
  | DkEnum => option_map e_parent (nth_error (p_enums p) c)
  | DkExtension => option_map x_parent (nth_error (p_exts p) c)
  | DkService => option_map (fun _ => None) (nth_error (p_services p) c)
  end.
(** directly in the message [par], or in file [k] and not in a message *)
Definition belongs (K : dk) (p : pool) (k : nat) (par : option nat) (c : nat) : Prop :=
  parent_of K p c = Some par /\
  match par with Some _ => True | None => exists id, nth_error (all_ids K p) c = Some id /\ id_file id = k end.
(** [js] are all of them, once each, in the order of their declaration *)
Record lists_all (K : dk) (p : pool) (k : nat) (par : option nat) (path : list Z) (tag : Z) (js : list nat) : Prop := {
  la_once : NoDup js;
  la_all : forall c, In c js <-> belongs K p k par c;
  la_order : forall n c, nth_error js n = Some c ->
    exists id, nth_error (all_ids K p) c = Some id /\ id_file id = k /\ id_path id = path ++ [tag; pos n]
}.

Lemma collect_all {A B} (g : A -> res B) l : (forall a, In a l -> exists b, g a = Ok b) ->
  exists bs, collect g l = Ok bs /\ Forall2 (fun a b => g a = Ok b) l bs.
Proof.
  induction l as [|a l IH]; intros H; [exists []; split; [reflexivity|constructor]|].
  destruct (H a (or_introl eq_refl)) as (b & Hb). destruct IH as (bs & Hbs & F); [intros x Hx; apply H; right; exact Hx|].
  exists (b :: bs). cbn. rewrite Hb. cbn [rbind]. rewrite Hbs. split; [reflexivity|constructor; assumption].
Qed.
Lemma collect_map {A B C} (h : A -> B) (g : B -> res C) l : collect (fun a => g (h a)) l = collect g (map h l).
Proof. induction l as [|a l IH]; [reflexivity|]. cbn. rewrite IH. reflexivity. Qed.

Definition ev_par (e : event) : option nat :=
  match e with
  | EvMessage _ _ _ par _ _ | EvEnum _ _ _ par _ _ | EvExt _ _ _ par _ _ => par
  | _ => None
  end.

Section Children.
  Context (X : externs) (p : pool) (SO : search_ok X) (R : reachable X p) (I : Inv X p).

  Lemma parent_event K e c : In e (pool_events p) -> kind_index K e = Some c -> parent_of K p c = Some (ev_par e).
  Proof.
    intros He Hk. destruct K, e; try discriminate; cbn in Hk; apply Some_inj in Hk; subst index; cbn [parent_of ev_par].
    - destruct (iv_msgs _ _ I _ _ _ _ _ _ He) as (mi & A & _ & B & _). rewrite A. cbn. rewrite B. reflexivity.
    - destruct (iv_enums _ _ I _ _ _ _ _ _ He) as (mi & A & _ & B & _). rewrite A. cbn. rewrite B. reflexivity.
    - destruct (iv_exts _ _ I _ _ _ _ _ _ He) as (mi & n0 & A & _ & B). rewrite A.
      destruct B as (g & ex & k & d & _ & _ & _ & _ & _ & ->). reflexivity.
    - destruct (iv_svcs _ _ I _ _ _ _ _ He) as (si & n0 & A & _). rewrite A. reflexivity.
  Qed.
  Lemma nested_event K e c : In e (pool_events p) -> kind_index K e = Some c ->
    exists q t n, ev_path e = q ++ [t; zn n] /\ above (ev_file_of e) (pool_events p) (ev_par e) q.
  Proof. intros He Hk. pose proof (visit_nested _ _ _ He) as N. destruct K, e; try discriminate; exact N. Qed.
  Lemma message_events_same q full fi par i m path full' k par' m' : In (EvMessage q full fi par i m) (pool_events p) ->
    In (EvMessage path full' k par' i m') (pool_events p) -> q = path /\ fi = k.
  Proof.
    intros H1 H2. destruct (iv_msgs _ _ I _ _ _ _ _ _ H1) as (a & A & B & _). destruct (iv_msgs _ _ I _ _ _ _ _ _ H2) as (a' & A' & B' & _).
    rewrite A in A'. apply Some_inj in A'. subst a'. rewrite B in B'. apply (f_equal id_path) in B' as E1. apply (f_equal id_file) in B'. auto.
  Qed.
  Lemma message_long q full fi par i m : In (EvMessage q full fi par i m) (pool_events p) -> q <> [].
  Proof.
    intros H. destruct (event_declared _ _ _ H eq_refl) as (f & s & _ & D & _). inversion D as [? ? ? M| | | | | | | |]; subst.
    pose proof (message_path _ _ _ _ M) as L. cbn in L. intros ->. cbn in L. lia.
  Qed.

  Lemma children_of K k f par path tag scope (l : list item) :
    nth_error (pool_files p) k = Some f ->
    match par with None => path = [] | Some i => exists full par' m, In (EvMessage path full k par' i m) (pool_events p) end ->
    (forall n it, nth_error l n = Some it -> declares f (path ++ [tag; pos n]) scope it /\ item_kind it = Some K) ->
    (forall t n s it, item_kind it = Some K -> declares f (path ++ [t; zn n]) s it -> t = tag /\ nth_error l n = Some it) ->
    (forall it, In it l -> hd 0 (dotted scope (item_name it)) <> 46) ->
    exists js, collect (fun n => need (lookup K p (join_name scope n))) (map item_name l) = Ok js /\ lists_all K p k par path tag js.
  Proof.
    intros Hf Hpar Hl Hall Hdot. destruct (C36_lookup_exact X p K SO R) as (_ & L & _).
    assert (forall n it, nth_error l n = Some it -> exists c id, nth_error (all_ids K p) c = Some id /\ id_file id = k /\
              id_path id = path ++ [tag; pos n] /\ lookup K p (join_name scope (item_name it)) = Some c) as Q.
    { intros n it Hn. destruct (Hl n it Hn) as [D Hk].
      destruct (L k f _ _ it Hf (ex_intro _ scope (conj D eq_refl)) Hk) as (c & id & A & B & C & _ & _ & _ & G).
      exists c, id. repeat (split; [assumption|]). apply G. apply Hdot. eapply nth_error_In; exact Hn. }
    destruct (collect_all (fun n => need (lookup K p (join_name scope n))) (map item_name l)) as (js & Hjs & F).
    { intros nm Hnm. apply in_map_iff in Hnm. destruct Hnm as (it & <- & Hit). apply In_nth_error in Hit. destruct Hit as (n & Hn).
      destruct (Q n it Hn) as (c & id & _ & _ & _ & G). rewrite G. exists c. reflexivity. }
    exists js. split; [exact Hjs|].
    assert (forall n c, nth_error js n = Some c -> exists id, nth_error (all_ids K p) c = Some id /\ id_file id = k /\ id_path id = path ++ [tag; pos n]) as Ord.
    { intros n c Hc. destruct (F2_nth_r _ _ _ F _ _ Hc) as (nm & Hnm & G). rewrite nth_error_map in Hnm.
      destruct (nth_error l n) as [it|] eqn:Hn; [|discriminate]. cbn in Hnm. apply Some_inj in Hnm. subst nm.
      destruct (Q n it Hn) as (c' & id & A & B & C & G'). rewrite G' in G. cbn [need] in G. apply Ok_inj in G. subst c'. eauto. }
    split.
    - apply NoDup_nth_error. intros n n' Hn E. destruct (nth_error js n) as [c|] eqn:Hc; [|apply nth_error_None in Hc; lia].
      destruct (Ord _ _ Hc) as (id & A & _ & P1). destruct (Ord _ _ (eq_sym E)) as (id' & A' & _ & P2).
      rewrite A in A'. apply Some_inj in A'. subst id'. rewrite P1 in P2. destruct (last_two_inj _ _ _ _ _ _ P2) as (_ & _ & E'). apply Nat2Z.inj. exact E'.
    - intros c. split.
      + intros Hc. apply In_nth_error in Hc. destruct Hc as (n & Hc). destruct (Ord _ _ Hc) as (id & A & B & C).
        split; [|destruct par; [exact Logic.I|eauto]].
        destruct (index_event X _ _ _ _ I A) as (e & He & Hk). rewrite (parent_event _ _ _ He Hk). f_equal.
        destruct (kind_item _ _ _ Hk) as (it & Hi & _). destruct (event_identifies X _ _ _ _ _ I He Hk Hi) as (id' & A' & _ & B' & C' & _).
        rewrite A in A'. apply Some_inj in A'. subst id'. rewrite B in B'. rewrite C in C'.
        destruct (nested_event _ _ _ He Hk) as (q & t & n' & Ep & Ab). rewrite Ep in C'. destruct (last_two_inj _ _ _ _ _ _ C') as (<- & _ & _).
        rewrite <- B' in Ab. destruct (ev_par e) as [i'|], par as [i|]; cbn in Ab.
        * destruct Ab as (full & par' & m & H1). destruct Hpar as (full' & par'' & m' & H2). f_equal.
          pose proof (visit_same _ _ _ _ H1 H2 eq_refl) as E. congruence.
        * destruct Ab as (full & par' & m & H1). destruct (message_long _ _ _ _ _ _ H1 Hpar).
        * subst path. destruct Hpar as (full' & par'' & m' & H2). destruct (message_long _ _ _ _ _ _ H2 eq_refl).
        * reflexivity.
      + intros [Hp Hk0]. assert (exists id, nth_error (all_ids K p) c = Some id) as (id & A).
        { clear - Hp. destruct K; cbn in *; rewrite nth_error_map.
          - destruct (nth_error (p_messages p) c); [eexists; reflexivity|discriminate].
          - destruct (nth_error (p_enums p) c); [eexists; reflexivity|discriminate].
          - destruct (nth_error (p_exts p) c); [eexists; reflexivity|discriminate].
          - destruct (nth_error (p_services p) c); [eexists; reflexivity|discriminate]. }
        destruct (index_event X _ _ _ _ I A) as (e & He & Hk). rewrite (parent_event _ _ _ He Hk) in Hp. apply Some_inj in Hp.
        destruct (kind_item _ _ _ Hk) as (it & Hi & Hik). destruct (event_identifies X _ _ _ _ _ I He Hk Hi) as (id' & A' & _ & B' & C' & _).
        rewrite A in A'. apply Some_inj in A'. subst id'.
        destruct (nested_event _ _ _ He Hk) as (q & t & n & Ep & Ab). rewrite Hp in Ab.
        assert (q = path /\ ev_file_of e = k) as [-> Ek].
        { destruct par as [i|]; cbn in Ab.
          - destruct Ab as (full & par' & m & H1). destruct Hpar as (full' & par'' & m' & H2). exact (message_events_same _ _ _ _ _ _ _ _ _ _ _ H1 H2).
          - destruct Hk0 as (id' & A' & B''). rewrite A in A'. apply Some_inj in A'. subst id'. split; congruence. }
        destruct (event_declared _ _ _ He Hi) as (f0 & s & Hf0 & D & _). rewrite Ek, Hf in Hf0. apply Some_inj in Hf0. subst f0. rewrite Ep in D.
        destruct (Hall t n s it Hik D) as [-> Hn].
        assert (nth_error js n <> None) as Hjn.
        { intros Q'. apply nth_error_None in Q'. assert (n < length l)%nat by (apply nth_error_Some; rewrite Hn; discriminate).
          pose proof (F2_len _ _ _ F) as FL. rewrite map_length in FL. lia. }
        destruct (nth_error js n) as [c'|] eqn:Hc'; [|destruct (Hjn eq_refl)]. destruct (Ord _ _ Hc') as (id' & A' & B1 & C1).
        destruct (index_event X _ _ _ _ I A') as (e' & He' & Hk'). destruct (kind_item _ _ _ Hk') as (it' & Hi' & _).
        destruct (event_identifies X _ _ _ _ _ I He' Hk' Hi') as (id'' & A'' & _ & B2 & C2 & _). rewrite A' in A''. apply Some_inj in A''. subst id''.
        assert (e' = e) as ->. { apply (visit_same off0 (raws p)); [exact He'|exact He|]. unfold place. rewrite <- B2, B1, <- C2, C1, Ek, Ep. reflexivity. }
        rewrite Hk in Hk'. apply Some_inj in Hk'. subst c'. eapply nth_error_In; exact Hc'.
    - exact Ord.
  Qed.
End Children.

(** what a file or message has of each kind, with the tags in paths *)
Definition top_items (K : dk) (f : file) : list item :=
  match K with
  | DkMessage => map IMessage (fl_messages f) | DkEnum => map IEnum (fl_enums f)
  | DkExtension => map IExt (fl_exts f) | DkService => map IService (fl_services f)
  end.
Definition top_tag (K : dk) : Z := match K with DkMessage => 4 | DkEnum => 5 | DkExtension => 7 | DkService => 6 end.
Definition inner_items (K : dk) (m : dproto) : list item :=
  match K with
  | DkMessage => map IMessage (dp_nested m) | DkEnum => map IEnum (dp_enums m)
  | DkExtension => map IExt (dp_exts m) | DkService => []
  end.
Definition inner_tag (K : dk) : Z := match K with DkMessage => 3 | DkEnum => 4 | DkExtension => 6 | DkService => 0 end.

Lemma declares_inv K f P s it : item_kind it = Some K -> declares f P s it ->
  (exists j, P = [top_tag K; pos j] /\ nth_error (top_items K f) j = Some it) \/
  (exists path scope m j, P = path ++ [inner_tag K; pos j] /\ message_at f path scope m /\ nth_error (inner_items K m) j = Some it).
Proof.
  intros HK D. destruct D; cbn in HK; try discriminate; apply Some_inj in HK; subst K; cbn [top_items top_tag inner_items inner_tag].
  - destruct H as [j m H|path scope m j n M H].
    + left. exists j. split; [reflexivity|]. rewrite nth_error_map, H. reflexivity.
    + right. exists path, scope, m, j. split; [reflexivity|]. split; [exact M|]. rewrite nth_error_map, H. reflexivity.
  - right. exists path, scope, m, j. split; [reflexivity|]. split; [exact H|]. rewrite nth_error_map, H0. reflexivity.
  - left. exists j. split; [reflexivity|]. rewrite nth_error_map, H. reflexivity.
  - destruct H as [j m H|path scope m j n M H].
    + left. exists j. split; [reflexivity|]. rewrite nth_error_map, H. reflexivity.
    + right. exists path, scope, m, j. split; [reflexivity|]. split; [exact M|]. rewrite nth_error_map, H. reflexivity.
  - left. exists j. split; [reflexivity|]. rewrite nth_error_map, H. reflexivity.
Qed.
Lemma top_declared K f n it : nth_error (top_items K f) n = Some it ->
  declares f ([] ++ [top_tag K; pos n]) (fl_package f) it /\ item_kind it = Some K.
Proof.
  intros H. destruct K; cbn [top_items top_tag app] in *; rewrite nth_error_map in H;
    match type of H with option_map _ (nth_error ?l n) = _ => destruct (nth_error l n) eqn:E; [|discriminate] end;
    cbn in H; apply Some_inj in H; subst it; (split; [|reflexivity]).
  - constructor. constructor. exact E.
  - constructor. constructor. exact E.
  - constructor. exact E.
  - constructor. exact E.
Qed.
Lemma inner_declared K f path scope m n it : message_at f path scope m -> nth_error (inner_items K m) n = Some it ->
  declares f (path ++ [inner_tag K; pos n]) (dotted scope (dp_name m)) it /\ item_kind it = Some K.
Proof.
  intros M H. destruct K; cbn [inner_items inner_tag] in *; [| | |destruct n; discriminate]; rewrite nth_error_map in H;
    match type of H with option_map _ (nth_error ?l n) = _ => destruct (nth_error l n) eqn:E; [|discriminate] end;
    cbn in H; apply Some_inj in H; subst it; (split; [|reflexivity]).
  - constructor. eapply ma_nested; eassumption.
  - constructor. eapply ea_nested; eassumption.
  - eapply de_ext; eassumption.
Qed.
Lemma top_complete K f t n s it : item_kind it = Some K -> declares f ([] ++ [t; zn n]) s it ->
  t = top_tag K /\ nth_error (top_items K f) n = Some it.
Proof.
  intros HK D. destruct (declares_inv _ _ _ _ _ HK D) as [(j & E & H)|(path & scope & m & j & E & M & H)].
  - cbn in E. injection E as -> E. apply Nat2Z.inj in E. subst j. auto.
  - destruct (last_two_inj _ _ _ _ _ _ E) as (<- & _). pose proof (message_path _ _ _ _ M) as L. cbn in L. lia.
Qed.
Lemma inner_complete K f path scope m t n s it : message_at f path scope m -> item_kind it = Some K -> declares f (path ++ [t; zn n]) s it ->
  t = inner_tag K /\ nth_error (inner_items K m) n = Some it.
Proof.
  intros M HK D. destruct (declares_inv _ _ _ _ _ HK D) as [(j & E & H)|(path' & scope' & m' & j & E & M' & H)].
  - change [top_tag K; pos j] with ([] ++ [top_tag K; pos j]) in E. destruct (last_two_inj _ _ _ _ _ _ E) as (-> & _).
    pose proof (message_path _ _ _ _ M) as L. cbn in L. lia.
  - destruct (last_two_inj _ _ _ _ _ _ E) as (<- & -> & E'). apply Nat2Z.inj in E'. subst j. split; [reflexivity|].
    destruct (message_found _ _ _ _ M) as [Q _]. destruct (message_found _ _ _ _ M') as [Q' _]. rewrite Q in Q'. apply Some_inj in Q'. subst m'. exact H.
Qed.

(** child_messages, child_enums, child_extensions; messages, enums,
    extensions, services of a file *)
Definition children (K : dk) (p : pool) (rs : list file) (m : message_inner) : res (list nat) :=
  match K with
  | DkMessage => child_messages p rs m | DkEnum => child_enums p rs m
  | DkExtension => child_extensions p rs m | DkService => Ok []
  end.
Definition file_children (K : dk) (p : pool) (rs : list file) (k : nat) : res (list nat) :=
  match K with
  | DkMessage => file_messages p rs k | DkEnum => file_enums p rs k
  | DkExtension => file_extensions p rs k | DkService => file_services p rs k
  end.
(** no full name starts with a dot *)
Definition undotted (p : pool) : Prop := forall K id, In id (all_ids K p) -> hd 0 (id_full id) <> 46.

Lemma names_copy_field l l' : map blank_field l = map blank_field l' -> map fp_name l = map fp_name l'.
Proof. intros E. apply (f_equal (map fp_name)) in E. rewrite !map_map in E. exact E. Qed.
Lemma names_copy_message l l' : map blank_message l = map blank_message l' -> map dp_name l = map dp_name l'.
Proof.
  intros E. apply (f_equal (map dp_name)) in E. rewrite !map_map in E.
  assert (forall m, dp_name (blank_message m) = dp_name m) as Q by (intros []; reflexivity).
  rewrite (map_ext _ dp_name Q), (map_ext _ dp_name Q) in E. exact E.
Qed.
Lemma names_copy_service l l' : map blank_service l = map blank_service l' -> map sp_name l = map sp_name l'.
Proof. intros E. apply (f_equal (map sp_name)) in E. rewrite !map_map in E. exact E. Qed.
Lemma children_names K p rs m d d0 : descriptor_proto rs m = Ok d -> blank_message d0 = blank_message d ->
  children K p rs m = collect (fun n => need (lookup K p (join_name (id_full (m_id m)) n))) (map item_name (inner_items K d0)).
Proof.
  intros D B. destruct (blank_message_parts _ _ B) as (_ & _ & Ex & En & Ee & _).
  destruct K; cbn [children inner_items]; [| | |reflexivity].
  - unfold child_messages. rewrite D. cbn [rbind]. rewrite (collect_map dp_name (fun n => need (get_message_by_name p (join_name (id_full (m_id m)) n)))).
    rewrite map_map, <- (names_copy_message _ _ En). reflexivity.
  - unfold child_enums. rewrite D. cbn [rbind]. rewrite (collect_map ep_name (fun n => need (get_enum_by_name p (join_name (id_full (m_id m)) n)))).
    rewrite map_map, Ee. reflexivity.
  - unfold child_extensions. rewrite D. cbn [rbind]. rewrite (collect_map fp_name (fun n => need (get_extension_by_name p (join_name (id_full (m_id m)) n)))).
    rewrite map_map, <- (names_copy_field _ _ Ex). reflexivity.
Qed.
Lemma file_children_names K p rs k f f0 : nth_error rs k = Some f -> blank_file f0 = blank_file f ->
  file_children K p rs k = collect (fun n => need (lookup K p (join_name (fl_package f0) n))) (map item_name (top_items K f0)).
Proof.
  intros D B. destruct (blank_file_parts _ _ B) as (Ep & Em & Ee & Es & Ex). rewrite Ep.
  destruct K; cbn [file_children top_items]; unfold file_messages, file_enums, file_extensions, file_services, file_proto; rewrite D; cbn [need rbind].
  - rewrite (collect_map dp_name (fun n => need (get_message_by_name p (join_name (fl_package f) n)))), map_map, <- (names_copy_message _ _ Em). reflexivity.
  - rewrite (collect_map ep_name (fun n => need (get_enum_by_name p (join_name (fl_package f) n)))), map_map, Ee. reflexivity.
  - rewrite (collect_map fp_name (fun n => need (get_extension_by_name p (join_name (fl_package f) n)))), map_map, <- (names_copy_field _ _ Ex). reflexivity.
  - rewrite (collect_map sp_name (fun n => need (get_service_by_name p (join_name (fl_package f) n)))), map_map, <- (names_copy_service _ _ Es). reflexivity.
Qed.
Lemma undotted_declared X p K k f path scope it : search_ok X -> reachable X p -> undotted p -> nth_error (pool_files p) k = Some f ->
  declares f path scope it -> item_kind it = Some K -> hd 0 (dotted scope (item_name it)) <> 46.
Proof.
  intros SO R U Hf D HK. destruct (C36_lookup_exact X p K SO R) as (_ & L & _).
  destruct (L k f path _ it Hf (ex_intro _ scope (conj D eq_refl)) HK) as (c & id & A & _ & _ & <- & _).
  apply (U K). eapply nth_error_In; exact A.
Qed.

(** The children of a message that the API lists are all the definitions whose
    parent is that message, each once and in the order of the file.  Listing
    them does not panic. *)
Theorem C72_children X p rs K i m : search_ok X -> shows X p rs -> undotted p -> nth_error (p_messages p) i = Some m ->
  exists js, children K p rs m = Ok js /\ lists_all K p (id_file (m_id m)) (Some i) (id_path (m_id m)) (inner_tag K) js.
Proof.
  intros SO S U H. pose proof (shows_reachable _ _ _ S) as R. pose proof (reachable_Inv _ _ SO R) as I. pose proof (shows_copies _ _ _ SO S) as C.
  destruct (message_shown X p rs I C i m H) as (k & f & f' & path & scope & d & d' & He & Hf & M & E & Hf' & M' & B & D).
  rewrite (children_names K p rs m d' d D B), E. cbn [mk_id id_file id_path id_full].
  apply (children_of X p SO R I K k f).
  - exact Hf.
  - eauto.
  - intros n it Hn. exact (inner_declared K f path scope d n it M Hn).
  - intros t n s it HK D'. exact (inner_complete K f path scope d t n s it M HK D').
  - intros it Hit. apply In_nth_error in Hit. destruct Hit as (n & Hn). destruct (inner_declared K f path scope d n it M Hn) as [D' HK].
    exact (undotted_declared X p K k f _ _ it SO R U Hf D' HK).
Qed.
Print Assumptions C72_children.

(** The same for what a file has outside of messages. *)
Theorem C72_file_children X p rs K k f : search_ok X -> shows X p rs -> undotted p -> nth_error rs k = Some f ->
  exists js, file_children K p rs k = Ok js /\ lists_all K p k None [] (top_tag K) js.
Proof.
  intros SO S U H. pose proof (shows_reachable _ _ _ S) as R. pose proof (reachable_Inv _ _ SO R) as I. pose proof (shows_copies _ _ _ SO S) as C.
  destruct (copy_from p rs C k f H) as (f0 & Hf & B). rewrite (file_children_names K p rs k f f0 H B).
  apply (children_of X p SO R I K k f0).
  - exact Hf.
  - reflexivity.
  - intros n it Hn. exact (top_declared K f0 n it Hn).
  - intros t n s it HK D'. exact (top_complete K f0 t n s it HK D').
  - intros it Hit. apply In_nth_error in Hit. destruct Hit as (n & Hn). destruct (top_declared K f0 n it Hn) as [D' HK].
    exact (undotted_declared X p K k f0 _ _ it SO R U Hf D' HK).
Qed.
Print Assumptions C72_file_children.

(** Every definition is listed by its parent message or, without one, by its
    file. *)
Theorem C72_listed X p rs K c id : search_ok X -> shows X p rs -> undotted p -> nth_error (all_ids K p) c = Some id ->
  match parent_of K p c with
  | Some (Some i) => exists m js, nth_error (p_messages p) i = Some m /\ id_file (m_id m) = id_file id /\ children K p rs m = Ok js /\ In c js
  | Some None => exists js, file_children K p rs (id_file id) = Ok js /\ In c js
  | None => False
  end.
Proof.
  intros SO S U A. pose proof (shows_reachable _ _ _ S) as R. pose proof (reachable_Inv _ _ SO R) as I. pose proof (shows_copies _ _ _ SO S) as C.
  destruct (index_event X _ _ _ _ I A) as (e & He & Hk). destruct (kind_item _ _ _ Hk) as (it & Hi & _).
  destruct (event_identifies X _ _ _ _ _ I He Hk Hi) as (id' & A' & _ & B' & _ & _). rewrite A in A'. apply Some_inj in A'. subst id'.
  pose proof (parent_event X p I K e c He Hk) as P. rewrite P. destruct (nested_event p K e c He Hk) as (q & t & n & _ & Ab).
  destruct (ev_par e) as [i|]; cbn in Ab.
  - destruct Ab as (full & par & m & H). destruct (iv_msgs _ _ I _ _ _ _ _ _ H) as (mi & Hm & Em & _).
    destruct (C72_children X p rs K i mi SO S U Hm) as (js & Hj & L). exists mi, js. split; [exact Hm|]. split; [rewrite Em; symmetry; exact B'|]. split; [exact Hj|].
    apply (la_all _ _ _ _ _ _ _ L). split; [exact P|exact Logic.I].
  - destruct (event_declared _ _ _ He Hi) as (f & s & Hf & _ & _). destruct (copy_of p rs C _ _ Hf) as (f' & Hf' & _). rewrite <- B' in Hf'.
    destruct (C72_file_children X p rs K (id_file id) f' SO S U Hf') as (js & Hj & L). exists js. split; [exact Hj|].
    apply (la_all _ _ _ _ _ _ _ L). split; [exact P|eauto].
Qed.
Print Assumptions C72_listed.

(** ** Examples *)

(** the pool of two example files, after two calls *)
Example C72_shows : shows demo_externs pool_abcd (([] ++ back_ab) ++ back_cd).
Proof.
  apply (sh_built demo_externs 10 pool_ab _ [file_cd]); [|repeat constructor; discriminate|exact built_abcd|vm_compute; reflexivity].
  apply (sh_built demo_externs 10 empty_pool [] [file_ab]); [constructor|repeat constructor; discriminate|exact built_ab|vm_compute; reflexivity].
Qed.
Lemma all_kinds p (P : ident -> Prop) : Forall P (all_ids DkMessage p ++ all_ids DkEnum p ++ all_ids DkExtension p ++ all_ids DkService p) ->
  forall K id, In id (all_ids K p) -> P id.
Proof.
  intros F K id H. rewrite Forall_forall in F. apply F. rewrite !in_app_iff. destruct K; auto.
Qed.
Example C72_undotted : undotted pool_abcd.
Proof. exact (all_kinds pool_abcd (fun id => hd 0 (id_full id) <> 46) ltac:(vm_compute; repeat constructor; discriminate)). Qed.
(** [a.b.M] has the message [Inner] and the enum [Kind]; the file of [c.N] has
    two extensions *)
Example C72_lists :
  (exists m, nth_error (p_messages pool_abcd) 0 = Some m /\ id_full (m_id m) = b "a.b.M" /\
     child_messages pool_abcd (back_ab ++ back_cd) m = Ok [1%nat] /\ child_enums pool_abcd (back_ab ++ back_cd) m = Ok [0%nat] /\
     child_extensions pool_abcd (back_ab ++ back_cd) m = Ok []) /\
  file_messages pool_abcd (back_ab ++ back_cd) 0 = Ok [0%nat] /\ file_messages pool_abcd (back_ab ++ back_cd) 1 = Ok [2%nat] /\
  file_enums pool_abcd (back_ab ++ back_cd) 0 = Ok [1%nat] /\ file_services pool_abcd (back_ab ++ back_cd) 0 = Ok [0%nat] /\
  file_extensions pool_abcd (back_ab ++ back_cd) 1 = Ok [0%nat; 1%nat] /\ file_messages pool_abcd (back_ab ++ back_cd) 2 = Panic.
Proof. split; [eexists; split; [vm_compute; reflexivity|]|]; repeat split; vm_compute; reflexivity. Qed.

(** Without a package a message can be given a name that starts with a dot.
    The file is accepted, but listing its messages panics: the lookup by full
    name takes the dot for the sign of an absolute name. *)
Definition dotted_file : file := File (b "dotted.proto") [] [] [] [] [DP (b ".M") [] [] [] [] [] [] false []] [] [] [] None.
Definition pool_dotted : pool := match build_files demo_externs 10 empty_pool [dotted_file] with Built p => p | _ => empty_pool end.
Theorem C72_refuted_dotted_name : exists X p rs m, search_ok X /\ shows X p rs /\ nth_error (p_messages p) 0 = Some m /\
  m_parent m = None /\ id_file (m_id m) = 0%nat /\ file_messages p rs 0 = Panic.
Proof.
  exists demo_externs, pool_dotted, ([] ++ [dotted_file]). eexists.
  split; [exact demo_search|]. split; [|split; [vm_compute; reflexivity|repeat split; vm_compute; reflexivity]].
  apply (sh_built demo_externs 10 empty_pool [] [dotted_file]); [constructor|repeat constructor; discriminate|vm_compute; reflexivity|vm_compute; reflexivity].
Qed.
Print Assumptions C72_refuted_dotted_name.
