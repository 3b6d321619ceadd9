(** Adding files does not touch what was there before: every step of the two
    building phases, failing or not, keeps the old part of the pool; and
    rolling back recovers it. *)
From Verif Require Import Base BaseProofs Value Descr Proto Build VisitProofs EventProofs.

(** ** Small facts about the containers *)

Lemma upd_length {A} i (g : A -> A) l : length (upd i g l) = length l.
Proof. revert i. induction l as [|a l IH]; intros [|i]; cbn; auto. Qed.
Lemma nth_upd {A} i j (g : A -> A) l :
  nth_error (upd i g l) j = if (i =? j)%nat then option_map g (nth_error l j) else nth_error l j.
Proof.
  revert i j. induction l as [|a l IH]; intros [|i] [|j]; cbn; try reflexivity.
  - destruct (i =? j)%nat; reflexivity.
  - apply IH.
Qed.
Lemma upd_out {A} i (g : A -> A) l : (length l <= i)%nat -> upd i g l = l.
Proof. revert i. induction l as [|a l IH]; intros [|i] H; cbn in *; try reflexivity; try lia. f_equal. apply IH. lia. Qed.
Lemma firstn_upd {A} n i (g : A -> A) l : (n <= i)%nat -> firstn n (upd i g l) = firstn n l.
Proof.
  revert i l. induction n as [|n IH]; intros i l H; [reflexivity|].
  destruct l as [|a l], i as [|i]; cbn; try reflexivity; try lia. f_equal. apply IH. lia.
Qed.
Lemma upd_id {A} i (g : A -> A) l : (forall a, g a = a) -> upd i g l = l.
Proof. intros H. revert i. induction l as [|a l IH]; intros [|i]; cbn; auto; [rewrite H|rewrite IH]; reflexivity. Qed.
Lemma firstn_app_le {A} n (l x : list A) : (n <= length l)%nat -> firstn n (l ++ x) = firstn n l.
Proof. intros H. rewrite firstn_app. replace (n - length l)%nat with O by lia. cbn. apply app_nil_r. Qed.
Lemma firstn_len {A} n (l a : list A) : firstn n l = a -> length a = n -> (n <= length l)%nat.
Proof. intros H L. rewrite <- H, firstn_length in L. lia. Qed.
Lemma nth_app_l {A} (l x : list A) i : (i < length l)%nat -> nth_error (l ++ x) i = nth_error l i.
Proof. apply nth_error_app1. Qed.
Lemma nth_app_new {A} (l : list A) a : nth_error (l ++ [a]) (length l) = Some a.
Proof. rewrite nth_error_app2 by lia. rewrite Nat.sub_diag. reflexivity. Qed.

Lemma F2_len {A B} (R : A -> B -> Prop) l l' : Forall2 R l l' -> length l = length l'.
Proof. induction 1; cbn; congruence. Qed.

Lemma F2_nth_r {A B} (R : A -> B -> Prop) l l' : Forall2 R l l' ->
  forall i b, nth_error l' i = Some b -> exists a, nth_error l i = Some a /\ R a b.
Proof.
  induction 1 as [|x y l l' H _ IH]; intros [|i] b E; cbn in *; try discriminate.
  - inversion E; subst. eauto.
  - apply IH; exact E.
Qed.
Lemma F2_nth_l {A B} (R : A -> B -> Prop) l l' : Forall2 R l l' ->
  forall i a, nth_error l i = Some a -> exists b, nth_error l' i = Some b /\ R a b.
Proof.
  induction 1 as [|x y l l' H _ IH]; intros [|i] b E; cbn in *; try discriminate.
  - inversion E; subst. eauto.
  - apply IH; exact E.
Qed.

Lemma Some_inj {A} (a b : A) : Some a = Some b -> a = b.
Proof. intros H. injection H. auto. Qed.
Lemma Ok_inj {A} (a b : A) : Ok a = Ok b -> a = b.
Proof. intros H. injection H. auto. Qed.

Lemma at_ok {A} (l : list A) i a : at_ l i = Ok a <-> nth_error l i = Some a.
Proof. unfold at_. destruct (nth_error l i); split; intros H; inversion H; auto. Qed.

Lemma assoc_put_same {A} k (v : A) l : assoc_s k (assoc_put k v l) = Some v.
Proof.
  induction l as [|[k' v'] l IH]; cbn; [rewrite bytes_eqb_refl; reflexivity|].
  destruct (bytes_eqb k k') eqn:E; cbn; [rewrite bytes_eqb_refl; reflexivity|rewrite E; exact IH].
Qed.
Lemma assoc_put_other {A} k k' (v : A) l : k <> k' -> assoc_s k (assoc_put k' v l) = assoc_s k l.
Proof.
  intros H. induction l as [|[k2 v2] l IH]; cbn.
  - rewrite (proj2 (bytes_eqb_neq k k') H). reflexivity.
  - destruct (bytes_eqb k' k2) eqn:E; cbn.
    + apply bytes_eqb_eq in E. subst. rewrite (proj2 (bytes_eqb_neq k k2) H). reflexivity.
    + destruct (bytes_eqb k k2); [reflexivity|exact IH].
Qed.
Lemma assoc_s_None {A} k (l : list (str * A)) : assoc_s k l = None <-> ~ In k (map fst l).
Proof.
  induction l as [|[k' v] l IH]; cbn; [tauto|].
  destruct (bytes_eqb k k') eqn:E.
  - apply bytes_eqb_eq in E. subst. split; [discriminate|]. intros H. exfalso. apply H. auto.
  - apply bytes_eqb_neq in E. rewrite IH. split; [intros H [H'|H']; congruence || auto|intros H H'; apply H; auto].
Qed.
Lemma assoc_put_new {A} k (v : A) l : assoc_s k l = None -> assoc_put k v l = l ++ [(k, v)].
Proof.
  induction l as [|[k' v'] l IH]; cbn; intros H; [reflexivity|].
  destruct (bytes_eqb k k'); [discriminate|]. rewrite IH by exact H. reflexivity.
Qed.
Lemma assoc_put_filter {A} (P : str * A -> bool) k v l :
  P (k, v) = false -> (forall v', In (k, v') l -> P (k, v') = false) ->
  filter P (assoc_put k v l) = filter P l.
Proof.
  intros H0 H. induction l as [|[k' v'] l IH]; cbn; [rewrite H0; reflexivity|].
  destruct (bytes_eqb k k') eqn:E; cbn.
  - apply bytes_eqb_eq in E. subst k'. rewrite H0, (H v') by (left; reflexivity). reflexivity.
  - rewrite IH; [reflexivity|]. intros v2 H2. apply H. right. exact H2.
Qed.

Lemma filter_all {A} (P : A -> bool) l : (forall a, In a l -> P a = true) -> filter P l = l.
Proof.
  induction l as [|a l IH]; cbn; intros H; [reflexivity|].
  rewrite H by auto. rewrite IH by auto. reflexivity.
Qed.
Lemma filter_none {A} (P : A -> bool) l : (forall a, In a l -> P a = false) -> filter P l = [].
Proof.
  induction l as [|a l IH]; cbn; intros H; [reflexivity|].
  rewrite H by auto. rewrite IH by auto. reflexivity.
Qed.

(** ** All the indices in a call are new *)

Definition fresh_ev (o : offsets) (e : event) : Prop :=
  match e with
  | EvFile _ i _ => (of_file o <= i)%nat
  | EvMessage _ _ f _ i _ => (of_file o <= f)%nat /\ (of_msg o <= i)%nat
  | EvField _ _ f m _ _ | EvOneof _ _ f m _ _ => (of_file o <= f)%nat /\ (of_msg o <= m)%nat
  | EvService _ _ f i _ => (of_file o <= f)%nat /\ (of_service o <= i)%nat
  | EvMethod _ _ f s _ _ => (of_file o <= f)%nat /\ (of_service o <= s)%nat
  | EvEnum _ _ f _ i _ => (of_file o <= f)%nat /\ (of_enum o <= i)%nat
  | EvEnumValue _ _ f e _ _ => (of_file o <= f)%nat /\ (of_enum o <= e)%nat
  | EvExt _ _ f _ i _ => (of_file o <= f)%nat /\ (of_ext o <= i)%nat
  end.

Definition off_le (a b : offsets) : Prop :=
  (of_file a <= of_file b /\ of_msg a <= of_msg b /\ of_enum a <= of_enum b /\
   of_service a <= of_service b /\ of_ext a <= of_ext b)%nat.
Lemma off_le_refl a : off_le a a.
Proof. unfold off_le. lia. Qed.
Lemma off_le_trans a b c : off_le a b -> off_le b c -> off_le a c.
Proof. unfold off_le. lia. Qed.
Lemma off_le_adv1 o e : off_le o (adv1 o e).
Proof. destruct e, o; unfold off_le; cbn; lia. Qed.
Lemma off_le_adv o es : off_le o (adv o es).
Proof.
  revert o. induction es as [|e es IH]; intros o; [apply off_le_refl|].
  rewrite adv_cons. eapply off_le_trans; [apply off_le_adv1|apply IH].
Qed.

Lemma scoped_in o es : scoped o es -> forall e, In e es ->
  exists o', off_le o o' /\ scoped1 o' e /\ off_le (adv1 o' e) (adv o es).
Proof.
  revert o. induction es as [|x es IH]; intros o Hs e He; [destruct He|].
  destruct Hs as [H1 H2]. rewrite adv_cons. destruct He as [-> | He].
  - exists o. split; [apply off_le_refl|]. split; [exact H1|apply off_le_adv].
  - destruct (IH _ H2 _ He) as [o' [A [B C]]]. exists o'.
    split; [eapply off_le_trans; [apply off_le_adv1|exact A]|]. split; assumption.
Qed.

(** a definition's file is announced among the calls *)
Lemma visit_file_first o fs e : In e (visit o fs) ->
  forall f, (match e with
             | EvFile _ i _ => i = f
             | EvMessage _ _ f' _ _ _ | EvField _ _ f' _ _ _ | EvOneof _ _ f' _ _ _
             | EvService _ _ f' _ _ | EvMethod _ _ f' _ _ _ | EvEnum _ _ f' _ _ _
             | EvEnumValue _ _ f' _ _ _ | EvExt _ _ f' _ _ _ => f' = f
             end) ->
  exists k, f = (of_file o + k)%nat /\ (k < length fs)%nat.
Proof.
  intros H f Hf.
  pose proof (visit_located (fun i => if (i <? of_file o)%nat then None else nth_error fs (i - of_file o)) fs o) as L.
  assert (forall k f0, nth_error fs k = Some f0 ->
            (if (of_file o + k <? of_file o)%nat then None else nth_error fs (of_file o + k - of_file o)) = Some f0) as HH.
  { intros k g Hk. destruct (Nat.ltb_spec (of_file o + k) (of_file o)); [lia|].
    replace (of_file o + k - of_file o)%nat with k by lia. exact Hk. }
  specialize (L HH). rewrite Forall_forall in L. specialize (L _ H).
  assert (exists g, (if (f <? of_file o)%nat then None else nth_error fs (f - of_file o)) = Some g) as [g Hg].
  { destruct e; cbn [located] in L; subst; try (eexists; exact L); destruct L as [g L]; exists g; tauto. }
  destruct (Nat.ltb_spec f (of_file o)); [discriminate|].
  exists (f - of_file o)%nat. split; [lia|]. apply nth_error_Some. congruence.
Qed.

Lemma visit_fresh o fs : Forall (fresh_ev o) (visit o fs).
Proof.
  apply Forall_forall. intros e He.
  pose proof (visit_scoped o fs) as Hs. destruct (visit_cc o fs) as [Hc _].
  destruct (scoped_in _ _ Hs _ He) as [o' [[A1 [A2 [A3 [A4 A5]]]] [B C]]].
  assert (forall f, (match e with
             | EvFile _ i _ => i = f
             | EvMessage _ _ f' _ _ _ | EvField _ _ f' _ _ _ | EvOneof _ _ f' _ _ _
             | EvService _ _ f' _ _ | EvMethod _ _ f' _ _ _ | EvEnum _ _ f' _ _ _
             | EvEnumValue _ _ f' _ _ _ | EvExt _ _ f' _ _ _ => f' = f
             end) -> (of_file o <= f)%nat) as HF.
  { intros f Hf. destruct (visit_file_first _ _ _ He _ Hf) as [k [-> _]]. lia. }
  assert (forall k i, owner e = Some (k, i) -> (oget o k <= i)%nat) as HO.
  { intros k i E. destruct (Hc _ _ _ He E) as [h [H1 H2]].
    destruct (head_range _ _ _ _ _ Hs H1 H2) as [R _]. exact R. }
  destruct e; cbn in *; try (split; [apply HF; reflexivity|]); try lia.
  - apply (HO 0%nat); reflexivity.
  - apply (HO 1%nat); reflexivity.
  - apply (HO 2%nat); reflexivity.
  - apply (HO 3%nat); reflexivity.
Qed.

(** ** The frame *)

(** packages starting with a dot have an empty prefix, which becomes a package *)
Definition dotted_pkg (f : file) : Prop := hd 0 (fl_package f) = dot.
Definition new_def (fs : list file) (o : offsets) (p : pool) (nd : str * def) : Prop :=
  match d_kind (snd nd) with
  | DPackage => assoc_s (fst nd) (p_names p) = None /\ (fst nd = [] -> Exists dotted_pkg fs)
  | DMessage i | DField i | DOneof i => (of_msg o <= i)%nat
  | DService i | DMethod i => (of_service o <= i)%nat
  | DEnum i | DEnumValue i => (of_enum o <= i)%nat
  | DExtension i => (of_ext o <= i)%nat
  end.

(** the same message, with more extensions *)
Definition msame (o : offsets) (m m' : message_inner) : Prop :=
  m_id m' = m_id m /\ m_parent m' = m_parent m /\ m_fields m' = m_fields m /\
  m_numbers m' = m_numbers m /\ m_names m' = m_names m /\ m_jsons m' = m_jsons m /\
  m_oneofs m' = m_oneofs m /\ m_map_entry m' = m_map_entry m /\
  exists xs, m_exts m' = m_exts m ++ xs /\ Forall (fun x => (of_ext o <= x)%nat) xs.

Record frame (fs : list file) (o : offsets) (p p' : pool) : Prop := Frame {
  fr_names : exists news, p_names p' = news ++ p_names p /\ Forall (new_def fs o p) news;
  fr_fnames : filter (fun nf => (snd nf <? of_file o)%nat) (p_file_names p') = p_file_names p;
  fr_files : firstn (of_file o) (p_files p') = p_files p;
  fr_msgs : Forall2 (msame o) (p_messages p) (firstn (of_msg o) (p_messages p'));
  fr_enums : firstn (of_enum o) (p_enums p') = p_enums p;
  fr_exts : firstn (of_ext o) (p_exts p') = p_exts p;
  fr_services : firstn (of_service o) (p_services p') = p_services p
}.

Lemma msame_refl o m : msame o m m.
Proof. unfold msame. repeat split. exists []. rewrite app_nil_r. auto. Qed.

(** [o] are the sizes of the tables of [p] *)
Definition sizes (p : pool) (o : offsets) : Prop :=
  length (p_files p) = of_file o /\ length (p_messages p) = of_msg o /\
  length (p_enums p) = of_enum o /\ length (p_services p) = of_service o /\
  length (p_exts p) = of_ext o.
Lemma sizes_of p : sizes p (offsets_of p).
Proof. repeat split. Qed.

Section Frame.
  Context (fs : list file) (p0 : pool) (o : offsets) (Ho : sizes p0 o).

  Lemma frame_init : Forall (fun nf => (snd nf < of_file o)%nat) (p_file_names p0) -> frame fs o p0 p0.
  Proof.
    intros H. destruct Ho as [L1 [L2 [L3 [L4 L5]]]]. constructor; try (rewrite <- ?L1, <- ?L2, <- ?L3, <- ?L4, <- ?L5; apply firstn_all).
    - exists []. auto.
    - apply filter_all. intros a Ha. rewrite Forall_forall in H. specialize (H _ Ha). apply Nat.ltb_lt. exact H.
    - rewrite <- L2. rewrite firstn_all. clear. induction (p_messages p0); constructor; auto using msame_refl.
  Qed.

  Lemma frame_names v nd : frame fs o p0 v -> new_def fs o p0 nd -> frame fs o p0 (set_names (nd :: p_names v) v).
  Proof.
    intros [[news [A B]] ? ? ? ? ? ?] H. constructor; cbn; auto.
    exists (nd :: news). rewrite A. cbn. auto.
  Qed.
  Lemma frame_push_file v x fn :
    frame fs o p0 v -> filter (fun nf => (snd nf <? of_file o)%nat) fn = p_file_names p0 ->
    frame fs o p0 (set_files fn (p_files v ++ x) v).
  Proof.
    intros [N F Fi M E X S] H. constructor; cbn; auto.
    rewrite firstn_app_le; [exact Fi|]. eapply firstn_len; [exact Fi|apply Ho].
  Qed.
  Lemma frame_fnames v fn :
    frame fs o p0 v -> filter (fun nf => (snd nf <? of_file o)%nat) fn = p_file_names p0 ->
    frame fs o p0 (set_files fn (p_files v) v).
  Proof. intros [N F Fi M E X S] H. constructor; cbn; auto. Qed.
  Lemma frame_upd_file v i g : frame fs o p0 v -> (of_file o <= i)%nat ->
    frame fs o p0 (set_files (p_file_names v) (upd i g (p_files v)) v).
  Proof. intros [N F Fi M E X S] H. constructor; cbn; auto. rewrite firstn_upd; auto. Qed.
  Lemma frame_push_msg v x : frame fs o p0 v -> frame fs o p0 (set_messages (p_messages v ++ x) v).
  Proof.
    intros [N F Fi M E X S]. constructor; cbn; auto.
    rewrite firstn_app_le; [exact M|]. apply F2_len in M. rewrite firstn_length in M.
    destruct Ho as [_ [L2 _]]. lia.
  Qed.
  Lemma frame_upd_msg v i g : frame fs o p0 v -> (of_msg o <= i)%nat ->
    frame fs o p0 (set_messages (upd i g (p_messages v)) v).
  Proof. intros [N F Fi M E X S] H. constructor; cbn; auto. rewrite firstn_upd; auto. Qed.
  Lemma frame_push_ext_of v i x : frame fs o p0 v -> (of_ext o <= x)%nat ->
    frame fs o p0 (set_messages (upd i (m_push_ext x) (p_messages v)) v).
  Proof.
    intros [N F Fi M E X S] H. constructor; cbn; auto.
    change (Forall2 (msame o) (p_messages p0) (firstn (of_msg o) (upd i (m_push_ext x) (p_messages v)))).
    revert M. generalize (of_msg o) as n. generalize (p_messages v) as l, (p_messages p0) as l0.
    intros l l0 n. revert i l l0. induction n as [|n IH]; intros i l l0 M; [exact M|].
    destruct l as [|a l]; [destruct i; exact M|].
    cbn in M. inversion M as [|b ? lb ? Hab Hl]; subst.
    destruct i as [|i]; cbn.
    - constructor; [|exact Hl]. destruct Hab as [H1 [H2 [H3 [H4 [H5 [H6 [H7 [H8 [xs [H9 H10]]]]]]]]]].
      unfold msame, m_push_ext. cbn. repeat split; auto. exists (xs ++ [x]). rewrite H9, app_assoc.
      split; [reflexivity|]. apply Forall_app. auto.
    - constructor; [exact Hab|]. apply IH. exact Hl.
  Qed.
  Lemma frame_push_enum v x : frame fs o p0 v -> frame fs o p0 (set_enums (p_enums v ++ x) v).
  Proof.
    intros [N F Fi M E X S]. constructor; cbn; auto.
    rewrite firstn_app_le; [exact E|]. eapply firstn_len; [exact E|apply Ho].
  Qed.
  Lemma frame_upd_enum v i g : frame fs o p0 v -> (of_enum o <= i)%nat ->
    frame fs o p0 (set_enums (upd i g (p_enums v)) v).
  Proof. intros [N F Fi M E X S] H. constructor; cbn; auto. rewrite firstn_upd; auto. Qed.
  Lemma frame_push_ext v x : frame fs o p0 v -> frame fs o p0 (set_exts (p_exts v ++ x) v).
  Proof.
    intros [N F Fi M E X S]. constructor; cbn; auto.
    rewrite firstn_app_le; [exact X|]. eapply firstn_len; [exact X|apply Ho].
  Qed.
  Lemma frame_push_service v x : frame fs o p0 v -> frame fs o p0 (set_services (p_services v ++ x) v).
  Proof.
    intros [N F Fi M E X S]. constructor; cbn; auto.
    rewrite firstn_app_le; [exact S|]. eapply firstn_len; [exact S|apply Ho].
  Qed.
  Lemma frame_upd_service v i g : frame fs o p0 v -> (of_service o <= i)%nat ->
    frame fs o p0 (set_services (upd i g (p_services v)) v).
  Proof. intros [N F Fi M E X S] H. constructor; cbn; auto. rewrite firstn_upd; auto. Qed.

  (** ** Every step keeps the frame *)

  Lemma push_err_pool l e v v' : push_err l e v = Ok v' -> v_pool v' = v_pool v.
  Proof. unfold push_err. destruct (forallb _ l); [|discriminate]. intros H. inversion H. reflexivity. Qed.
  Lemma fold_res_inv {A St} (P : St -> Prop) (g : A -> St -> res St) l :
    (forall a s s', In a l -> P s -> g a s = Ok s' -> P s') ->
    forall s s', P s -> fold_res g l s = Ok s' -> P s'.
  Proof.
    induction l as [|a l IH]; intros H s s' Hs E; cbn in E; [inversion E; subst; exact Hs|].
    apply rbind_ok in E. destruct E as [s1 [E1 E2]].
    eapply IH; [|eapply H; [left; reflexivity|exact Hs|exact E1]|exact E2].
    intros b x y Hb. apply H. right. exact Hb.
  Qed.

  Lemma add_name_pool f name path k v v' : add_name f name path k v = Ok v' ->
    (v_pool v' = v_pool v) \/
    (assoc_s name (p_names (v_pool v)) = None /\ v_errs v' = v_errs v /\
     v_pool v' = set_names ((name, Def f path k) :: p_names (v_pool v)) (v_pool v)).
  Proof.
    unfold add_name. destruct (assoc_s name _) as [d|] eqn:E; intros H.
    - left. destruct (is_package k && is_package (d_kind d)); [inversion H; reflexivity|].
      exact (push_err_pool _ _ _ _ H).
    - right. inversion H. auto.
  Qed.

  Lemma frame_add_name f name path k v v' :
    frame fs o p0 (v_pool v) -> ((k = DPackage /\ (name = [] -> Exists dotted_pkg fs)) \/ new_def fs o p0 (name, Def f path k)) ->
    add_name f name path k v = Ok v' -> frame fs o p0 (v_pool v').
  Proof.
    intros Hf Hk H. apply add_name_pool in H. destruct H as [-> | [Hn [_ ->]]]; [exact Hf|].
    apply frame_names; [exact Hf|]. destruct Hk as [[-> Hk] | Hk]; [|exact Hk].
    unfold new_def. cbn. split; [|exact Hk]. destruct Hf as [[news [A _]] _ _ _ _ _ _]. rewrite A in Hn.
    apply assoc_s_None in Hn. apply assoc_s_None. intros Hi. apply Hn. rewrite map_app. apply in_or_app. auto.
  Qed.

  Lemma check_camel_pool f fds : forall i seen v v', check_camel f i seen fds v = Ok v' -> v_pool v' = v_pool v.
  Proof.
    induction fds as [|x fds IH]; intros i seen v v' H; cbn in H; [inversion H; reflexivity|].
    destruct (existsb (bytes_eqb (to_lower_without_underscores (fp_name x))) seen).
    - apply rbind_ok in H. destruct H as [v1 [H1 H2]]. rewrite (IH _ _ _ _ H2). exact (push_err_pool _ _ _ _ H1).
    - exact (IH _ _ _ _ H).
  Qed.

  Lemma assert_ok b v v' : assert b v = Ok v' -> v' = v /\ b = true.
  Proof. unfold assert. destruct b; intros H; inversion H; auto. Qed.

  Definition unknown_file (e : event) : Prop :=
    match e with
    | EvFile _ _ f => assoc_s (fl_name f) (p_file_names p0) = None /\ In f fs
    | _ => True
    end.

  Lemma names_frame e v v' :
    fresh_ev o e -> unknown_file e ->
    frame fs o p0 (v_pool v) -> names_step e v = Ok v' -> frame fs o p0 (v_pool v').
  Proof.
    intros He Hu Hf H. destruct e; cbn [names_step fresh_ev unknown_file] in *.
    - unfold names_file in H. apply rbind_ok in H. destruct H as [v1 [H1 H]].
      apply assert_ok in H1. destruct H1 as [-> _].
      destruct (file_syntax f) as [sy|].
      2: { apply push_err_pool in H. rewrite H. exact Hf. }
      apply rbind_ok in H. destruct H as [v2 [H2 H]].
      assert (frame fs o p0 (v_pool v2)) as Hf2.
      { assert (v_pool v2 = set_files (assoc_put (fl_name f) index (p_file_names (v_pool v)))
                                       (p_files (v_pool v)) (v_pool v)) as ->.
        { destruct (assoc_s (fl_name f) (p_file_names (v_pool v))).
          - apply push_err_pool in H2. exact H2.
          - inversion H2. reflexivity. }
        apply frame_fnames; [exact Hf|]. rewrite assoc_put_filter; [apply Hf| |].
        - cbn [snd]. apply Nat.ltb_ge. exact He.
        - intros i' Hi. cbn [snd]. destruct (Nat.ltb_spec i' (of_file o)) as [L|L]; [|reflexivity].
          exfalso. destruct Hu as [Hu _]. apply assoc_s_None in Hu. apply Hu. rewrite <- (fr_fnames _ _ _ _ Hf).
          apply in_map_iff. exists (fl_name f, i'). split; [reflexivity|].
          apply filter_In. split; [exact Hi|]. apply Nat.ltb_lt. exact L. }
      assert (frame fs o p0 (v_pool (on_pool (fun p => set_files (p_file_names p) (p_files p ++ [FileI sy f [] []]) p) v2))) as Hf3.
      { apply frame_push_file; [exact Hf2|apply Hf2]. }
      destruct (fl_package f) as [|c pkg] eqn:Ep; [inversion H; subst; exact Hf3|].
      apply rbind_ok in H. destruct H as [v3 [H3 H]].
      eapply frame_add_name; [| |exact H]; [|left; split; [reflexivity|discriminate]].
      revert H3. apply (fold_res_inv (fun s => frame fs o p0 (v_pool s))); [|exact Hf3].
      intros pre s s' Hpre Hs E. eapply frame_add_name; [exact Hs| |exact E]. left. split; [reflexivity|].
      intros ->. apply Exists_exists. exists f. split; [apply Hu|]. unfold dotted_pkg. rewrite Ep. cbn.
      cbn in Hpre. destruct (c =? dot) eqn:Ec; [apply N.eqb_eq; exact Ec|exfalso]. cbn in Hpre.
      revert Hpre. assert (forall s pre, pre <> [] -> ~ In [] (before_dots pre s)) as Q.
      { clear. induction s as [|c s IH]; intros pre Hp Hi; cbn in Hi; [exact Hi|].
        apply in_app_or in Hi. destruct Hi as [Hi|Hi].
        - destruct (c =? dot); cbn in Hi; [destruct Hi as [Hi|[]]; congruence|exact Hi].
        - apply IH in Hi; [exact Hi|]. destruct pre; discriminate. }
      apply Q. discriminate.
    - unfold names_message in H. apply rbind_ok in H. destruct H as [v1 [H1 H]].
      apply rbind_ok in H. destruct H as [v2 [H2 H]]. apply assert_ok in H2. destruct H2 as [-> _].
      apply rbind_ok in H. destruct H as [fi [H3 H]].
      match type of H with context [on_pool ?g v1] => assert (frame fs o p0 (v_pool (on_pool g v1))) as Hf2 end.
      { apply frame_push_msg. eapply frame_add_name; [exact Hf| |exact H1]; right; exact (proj2 He). }
      destruct (fi_syntax fi); [inversion H; subst; exact Hf2|].
      apply check_camel_pool in H. rewrite H. exact Hf2.
    - eapply frame_add_name; [exact Hf| |exact H]; right; exact (proj2 He).
    - unfold names_oneof in H. apply rbind_ok in H. destruct H as [v1 [H1 H]].
      apply rbind_ok in H. destruct H as [m [H2 H]]. apply rbind_ok in H. destruct H as [v2 [H3 H]].
      apply assert_ok in H3. destruct H3 as [-> _]. inversion H; subst.
      apply frame_upd_msg; [|apply He]. eapply frame_add_name; [exact Hf| |exact H1]; right; exact (proj2 He).
    - eapply frame_add_name; [exact Hf| |exact H]; right; exact (proj2 He).
    - eapply frame_add_name; [exact Hf| |exact H]; right; exact (proj2 He).
    - unfold names_enum in H. apply rbind_ok in H. destruct H as [v1 [H1 H]].
      apply rbind_ok in H. destruct H as [v2 [H2 H]]. apply rbind_ok in H. destruct H as [v3 [H3 H]].
      apply assert_ok in H3. destruct H3 as [-> _]. inversion H; subst.
      apply frame_push_enum. assert (v_pool v2 = v_pool v1) as ->.
      { destruct (ep_values e).
        - exact (push_err_pool _ _ _ _ H2).
        - apply rbind_ok in H2. destruct H2 as [fi [_ H2]]. destruct (fi_syntax fi).
          + inversion H2; reflexivity.
          + destruct (snd p =? 0)%Z; [inversion H2; reflexivity|exact (push_err_pool _ _ _ _ H2)]. }
      eapply frame_add_name; [exact Hf| |exact H1]; right; exact (proj2 He).
    - unfold names_enum_value in H. apply rbind_ok in H. destruct H as [v1 [H1 H]].
      apply rbind_ok in H. destruct H as [m [H2 H]]. apply rbind_ok in H. destruct H as [v2 [H3 H]].
      apply assert_ok in H3. destruct H3 as [-> _]. inversion H; subst.
      apply frame_upd_enum; [|apply He]. eapply frame_add_name; [exact Hf| |exact H1]; right; exact (proj2 He).
    - eapply frame_add_name; [exact Hf| |exact H]; right; exact (proj2 He).
  Qed.

  (** *** the resolving phase *)

  Lemma check_import_pool n z v v' : check_import_index n z v = Ok v' -> v_pool v' = v_pool v.
  Proof. unfold check_import_index. destruct (_ && _); intros H; [inversion H; reflexivity|exact (push_err_pool _ _ _ _ H)]. Qed.
  Lemma fold_res_pool {A} (g : A -> vst -> res vst) l :
    (forall a v v', g a v = Ok v' -> v_pool v' = v_pool v) ->
    forall v v', fold_res g l v = Ok v' -> v_pool v' = v_pool v.
  Proof.
    intros H v v' E. apply (fold_res_inv (fun s => v_pool s = v_pool v) g l) with (s := v); auto.
    intros a s s' _ Hs Hg. rewrite (H _ _ _ Hg). exact Hs.
  Qed.

  Lemma resolve_deps_frame fuel index ds : (of_file o <= index)%nat ->
    forall k trans v t v', frame fs o p0 (v_pool v) ->
    resolve_deps fuel index k ds trans v = Ok (t, v') -> frame fs o p0 (v_pool v').
  Proof.
    intros Hi. induction ds as [|d ds IH]; intros k trans v t v' Hf H; cbn [resolve_deps] in H.
    - inversion H; subst. exact Hf.
    - destruct (assoc_s d _) as [di|].
      + apply rbind_ok in H. destruct H as [fi [_ H]]. apply rbind_ok in H. destruct H as [t1 [_ H]].
        eapply IH; [|exact H]. apply frame_upd_file; assumption.
      + apply rbind_ok in H. destruct H as [v1 [H1 H]]. eapply IH; [|exact H].
        rewrite (push_err_pool _ _ _ _ H1). exact Hf.
  Qed.

  Lemma check_field_number_pool message fd f v v' :
    check_field_number message fd f v = Ok v' -> v_pool v' = v_pool v.
  Proof.
    unfold check_field_number. intros H. apply rbind_ok in H. destruct H as [v1 [H1 H]].
    apply rbind_ok in H. destruct H as [m [_ H]]. apply rbind_ok in H. destruct H as [fi [_ H]].
    apply rbind_ok in H. destruct H as [mp [_ H]]. apply rbind_ok in H. destruct H as [v2 [H2 H]].
    assert (v_pool v2 = v_pool v) as <-.
    { transitivity (v_pool v1).
      - revert H2. apply fold_res_pool. intros r s s' Hs.
        destruct (in_range r (fp_number fd)); [exact (push_err_pool _ _ _ _ Hs)|inversion Hs; reflexivity].
      - destruct (legal_number (fp_number fd)); [inversion H1; reflexivity|exact (push_err_pool _ _ _ _ H1)]. }
    destruct (fp_extendee fd), (existsb _ _);
      try (exact (push_err_pool _ _ _ _ H)); inversion H; reflexivity.
  Qed.

  Lemma check_enum_number_pool enum z f v v' :
    check_enum_number enum z f v = Ok v' -> v_pool v' = v_pool v.
  Proof.
    unfold check_enum_number. intros H. apply rbind_ok in H. destruct H as [m [_ H]].
    apply rbind_ok in H. destruct H as [fi [_ H]].
    apply rbind_ok in H. destruct H as [mp [_ H]].
    revert H. apply fold_res_pool. intros r s s' Hs.
    destruct (in_range_incl r z); [exact (push_err_pool _ _ _ _ Hs)|inversion Hs; reflexivity].
  Qed.

  Lemma resolve_ref_pool scope name f path tag r v d v' :
    resolve_ref scope name f path tag r v = Ok (d, v') -> v_pool v' = v_pool v.
  Proof.
    unfold resolve_ref. intros H. apply rbind_ok in H. destruct H as [fi [_ H]].
    destruct (resolve_name _ _ _ _ _);
      apply rbind_ok in H; destruct H as [x [H1 H]]; inversion H; subst; try reflexivity;
      exact (push_err_pool _ _ _ _ H1).
  Qed.
  Lemma find_message_pool scope name f path tag v d v' :
    find_message scope name f path tag v = Ok (d, v') -> v_pool v' = v_pool v.
  Proof.
    unfold find_message. intros H. apply rbind_ok in H. destruct H as [[x v1] [H1 H]].
    apply resolve_ref_pool in H1. rewrite <- H1. destruct x as [d'|]; [|inversion H; reflexivity].
    destruct (d_kind d'); inversion H; reflexivity.
  Qed.
  Lemma resolve_type_pool ty name scope f path v d v' :
    resolve_type ty name scope f path v = Ok (d, v') -> v_pool v' = v_pool v.
  Proof.
    unfold resolve_type. intros H. destruct name as [|c name].
    - destruct ty; try (inversion H; reflexivity);
        apply rbind_ok in H; destruct H as [x [H1 H]]; inversion H; subst; exact (push_err_pool _ _ _ _ H1).
    - apply rbind_ok in H. destruct H as [[x v1] [H1 H]].
      apply resolve_ref_pool in H1. rewrite <- H1. destruct x as [d'|]; [|inversion H; reflexivity].
      destruct (d_kind d'); inversion H; reflexivity.
  Qed.

  Context (X : externs).

  Lemma parse_default_pool k d f v x v' :
    parse_default X k d f v = Ok (x, v') -> v_pool v' = v_pool v.
  Proof.
    unfold parse_default. intros H. destruct d as [s|]; [|inversion H; reflexivity].
    assert (forall y w, (let! v'0 := push_err [fst f] (at_spot (inside_spot f [7%Z]) (ErrDefault s)) v in Ok (None, v'0)) = Ok (y : option value, w) ->
            v_pool w = v_pool v) as B.
    { intros y w E. apply rbind_ok in E. destruct E as [v1 [E1 E]]. inversion E; subst. exact (push_err_pool _ _ _ _ E1). }
    destruct k; try (exact (B _ _ H));
      try (apply rbind_ok in H; destruct H as [[y|] [_ H]]; [inversion H; reflexivity|exact (B _ _ H)]).
    apply rbind_ok in H. destruct H as [en [_ H]].
    destruct (find _ _); [inversion H; reflexivity|exact (B _ _ H)].
  Qed.
  Lemma default_of_pool k fd f v x v' : default_of X k fd f v = Ok (x, v') -> v_pool v' = v_pool v.
  Proof. unfold default_of. destruct k; [apply parse_default_pool|]. intros H; inversion H; reflexivity. Qed.

  Lemma resolve_frame fuel e v v' :
    fresh_ev o e ->
    frame fs o p0 (v_pool v) -> resolve_step X fuel e v = Ok v' -> frame fs o p0 (v_pool v').
  Proof.
    intros He Hf H. destruct e; cbn [resolve_step fresh_ev] in *; try (inversion H; subst; exact Hf).
    - unfold resolve_file in H. apply rbind_ok in H. destruct H as [[t v1] [H1 H]].
      apply rbind_ok in H. destruct H as [fi [_ H]].
      apply rbind_ok in H. destruct H as [v2 [H2 H]].
      apply fold_res_pool in H; [|intros; eapply check_import_pool; eassumption]. rewrite H.
      apply fold_res_pool in H2; [|intros; eapply check_import_pool; eassumption]. rewrite H2.
      apply frame_upd_file; [|exact He]. eapply resolve_deps_frame; eassumption.
    - unfold resolve_field in H. destruct He as [He1 He2].
      apply rbind_ok in H. destruct H as [m [_ H]].
      apply rbind_ok in H. destruct H as [v1 [H1 H]]. apply assert_ok in H1. destruct H1 as [-> _].
      apply rbind_ok in H. destruct H as [fi [_ H]].
      apply rbind_ok in H. destruct H as [v2 [H2 H]]. apply check_field_number_pool in H2.
      apply rbind_ok in H. destruct H as [[k v3] [H3 H]]. apply resolve_type_pool in H3.
      apply rbind_ok in H. destruct H as [json [_ H]].
      apply rbind_ok in H. destruct H as [[dflt v4] [H4 H]]. apply default_of_pool in H4.
      apply rbind_ok in H. destruct H as [m2 [_ H]].
      apply rbind_ok in H. destruct H as [[on v5] [H5 H]].
      assert (frame fs o p0 (v_pool v5)) as Hf5.
      { assert (frame fs o p0 (v_pool v4)) as Hf4 by congruence.
        destruct (fp_oneof f) as [z|]; [|inversion H5; subst; exact Hf4].
        destruct (_ || _).
        - apply rbind_ok in H5. destruct H5 as [v6 [H5 H6]]. inversion H6; subst.
          apply push_err_pool in H5. congruence.
        - inversion H5; subst. apply frame_upd_msg; assumption. }
      match type of H with context [on_message ?a ?g v5] =>
        assert (frame fs o p0 (v_pool (on_message a g v5))) as Hf6 by (apply frame_upd_msg; assumption);
        set (v6 := on_message a g v5) in * end.
      apply rbind_ok in H. destruct H as [v7 [H7 H]].
      apply rbind_ok in H. destruct H as [v8 [H8 H]].
      assert (v_pool v' = v_pool v6) as ->; [|exact Hf6].
      transitivity (v_pool v8); [|transitivity (v_pool v7)].
      + destruct (assoc_s json _); [exact (push_err_pool _ _ _ _ H)|inversion H; reflexivity].
      + destruct (assoc_s (fp_name f) _); [exact (push_err_pool _ _ _ _ H8)|inversion H8; reflexivity].
      + destruct (bt_get _ _); [exact (push_err_pool _ _ _ _ H7)|inversion H7; reflexivity].
    - unfold resolve_service in H. apply rbind_ok in H. destruct H as [v1 [H1 H]].
      apply assert_ok in H1. destruct H1 as [-> _]. inversion H; subst. apply frame_push_service. exact Hf.
    - unfold resolve_method in H. apply rbind_ok in H. destruct H as [sv [_ H]].
      apply rbind_ok in H. destruct H as [v1 [H1 H]]. apply assert_ok in H1. destruct H1 as [-> _].
      apply rbind_ok in H. destruct H as [[a v2] [H2 H]]. apply find_message_pool in H2.
      apply rbind_ok in H. destruct H as [[b v3] [H3 H]]. apply find_message_pool in H3.
      inversion H; subst. apply frame_upd_service; [|apply He]. congruence.
    - unfold resolve_enum_value in H. apply rbind_ok in H. destruct H as [v1 [H1 H]].
      apply check_enum_number_pool in H1.
      apply rbind_ok in H. destruct H as [en [_ H]].
      match type of H with (let (_, _) := ?x in _) = _ => destruct x as [pos found] end.
      apply rbind_ok in H. destruct H as [v2 [H2 H]].
      assert (v_pool v2 = v_pool v1) as E2.
      { destruct (found && _); [exact (push_err_pool _ _ _ _ H2)|inversion H2; reflexivity]. }
      match type of H with context [on_pool ?g v2] =>
        assert (frame fs o p0 (v_pool (on_pool g v2))) as Hf6 by (apply frame_upd_enum; [congruence|apply He]);
        set (v6 := on_pool g v2) in * end.
      destruct (assoc_s _ _); [|inversion H; subst; exact Hf6].
      apply push_err_pool in H. rewrite H. exact Hf6.
    - unfold resolve_ext in H. apply rbind_ok in H. destruct H as [v1 [H1 H]].
      apply assert_ok in H1. destruct H1 as [-> _].
      apply rbind_ok in H. destruct H as [[ext v2] [H2 H]]. apply find_message_pool in H2.
      apply rbind_ok in H. destruct H as [v3 [H3 H]].
      assert (frame fs o p0 (v_pool v3)) as Hf3.
      { destruct ext as [e|]; [|inversion H3; subst; congruence].
        apply rbind_ok in H3. destruct H3 as [m [_ H3]]. apply check_field_number_pool in H3. rewrite H3.
        apply frame_push_ext_of; [congruence|apply He]. }
      apply rbind_ok in H. destruct H as [fi [_ H]].
      apply rbind_ok in H. destruct H as [[k v4] [H4 H]]. apply resolve_type_pool in H4.
      apply rbind_ok in H. destruct H as [json [_ H]].
      apply rbind_ok in H. destruct H as [[dflt v5] [H5 H]]. apply default_of_pool in H5.
      inversion H; subst. apply frame_push_ext. congruence.
  Qed.
End Frame.

(** ** The whole build, and rolling back *)

Lemma frame_trans_names fs o p p' : frame fs o p p' -> forall n, assoc_s n (p_names p') = None -> assoc_s n (p_names p) = None.
Proof.
  intros [[news [A _]] _ _ _ _ _ _] n Hn. rewrite A in Hn. apply assoc_s_None in Hn. apply assoc_s_None.
  intros Hi. apply Hn. rewrite map_app. apply in_or_app. auto.
Qed.

Definition fnames_ok (p : pool) : Prop := Forall (fun nf => (snd nf < length (p_files p))%nat) (p_file_names p).
Definition unknown_files (p : pool) (fs : list file) : Prop :=
  Forall (fun f => assoc_s (fl_name f) (p_file_names p) = None) fs.

Lemma unknown_file_ev p o fs : unknown_files p fs -> Forall (unknown_file fs p) (visit o fs).
Proof.
  intros H. apply Forall_forall. intros e He. destruct e; cbn; auto.
  apply visit_files_in in He. destruct He as [k [_ Hk]].
  unfold unknown_files in H. rewrite Forall_forall in H. split; [apply H|]; eapply nth_error_In; exact Hk.
Qed.

Lemma build_frame X fuel p fs v :
  fnames_ok p -> unknown_files p fs ->
  build_deduped X fuel p fs = Ok v -> frame fs (offsets_of p) p (v_pool v).
Proof.
  intros Hn Hu H. unfold build_deduped in H. set (o := offsets_of p) in *.
  pose proof (visit_fresh o fs) as HF. rewrite Forall_forall in HF.
  pose proof (unknown_file_ev p o fs Hu) as HU. rewrite Forall_forall in HU.
  assert (sizes p o) as Ho by apply sizes_of.
  apply rbind_ok in H. destruct H as [v1 [H1 H]].
  assert (frame fs o p (v_pool v1)) as F1.
  { revert H1. apply (fold_res_inv (fun s => frame fs o p (v_pool s))).
    - intros e s s' He Hs E. eapply names_frame; [exact Ho|apply HF; exact He|apply HU; exact He|exact Hs|exact E].
    - apply frame_init; [exact Ho|]. exact Hn. }
  destruct (v_errs v1); [|inversion H; subst; exact F1].
  apply rbind_ok in H. destruct H as [v2 [H2 H]].
  assert (frame fs o p (v_pool v2)) as F2.
  { revert H2. apply (fold_res_inv (fun s => frame fs o p (v_pool s))).
    - intros e s s' He Hs E. eapply resolve_frame; [exact Ho|apply HF; exact He|exact Hs|exact E].
    - exact F1. }
  destruct (v_errs v2); [|inversion H; subst; exact F2].
  apply rbind_ok in H. destruct H as [b [_ H]].
  destruct b; [inversion H; subst; exact F2|]. apply push_err_pool in H. rewrite H. exact F2.
Qed.

(** what must hold of the old pool for the rollback to be exact *)
Definition old_def (p : pool) (nd : str * def) : Prop :=
  match d_kind (snd nd) with
  | DPackage => keeps_package (p_files p) (fst nd) = true
  | DMessage i | DField i | DOneof i => (i < length (p_messages p))%nat
  | DService i | DMethod i => (i < length (p_services p))%nat
  | DEnum i | DEnumValue i => (i < length (p_enums p))%nat
  | DExtension i => (i < length (p_exts p))%nat
  end.
Record base (p : pool) : Prop := Base {
  ba_fnames : fnames_ok p;
  ba_defs : Forall (old_def p) (p_names p);
  ba_pkgs : forall n, n <> [] -> keeps_package (p_files p) n = true -> assoc_s n (p_names p) <> None
}.

(** all of the pool but the extension lists of messages *)
Definition strip (m : message_inner) : message_inner :=
  MessageI (m_id m) (m_parent m) [] (m_fields m) (m_numbers m) (m_names m) (m_jsons m) (m_oneofs m)
           (m_map_entry m).
Definition same_but_exts (p q : pool) : Prop :=
  p_names q = p_names p /\ p_file_names q = p_file_names p /\ p_files q = p_files p /\
  p_enums q = p_enums p /\ p_exts q = p_exts p /\ p_services q = p_services p /\
  map strip (p_messages q) = map strip (p_messages p).

Lemma same_refl p : same_but_exts p p.
Proof. unfold same_but_exts. auto 10. Qed.
Lemma same_trans p q r : same_but_exts p q -> same_but_exts q r -> same_but_exts p r.
Proof. unfold same_but_exts. intuition congruence. Qed.
Lemma same_lengths p q : same_but_exts p q -> length (p_messages q) = length (p_messages p).
Proof.
  intros [_ [_ [_ [_ [_ [_ H]]]]]]. rewrite <- (map_length strip (p_messages q)), H. apply map_length.
Qed.

Lemma base_same p q : same_but_exts p q -> base p -> base q.
Proof.
  intros H [B1 B2 B3]. pose proof (same_lengths _ _ H) as L.
  destruct H as [E1 [E2 [E3 [E4 [E5 [E6 _]]]]]]. constructor.
  - unfold fnames_ok in *. rewrite E2, E3. exact B1.
  - rewrite E1. eapply Forall_impl; [|exact B2]. intros nd. unfold old_def.
    rewrite E3, E4, E5, E6, L. auto.
  - rewrite E1, E3. exact B3.
Qed.

Lemma rollback_same fs p p' :
  base p -> ~ Exists dotted_pkg fs -> frame fs (offsets_of p) p p' ->
  same_but_exts p (rollback (offsets_of p) p').
Proof.
  intros [B1 B2 B3] Hd [[news [N1 N2]] F2 F3 F4 F5 F6 F7].
  unfold rollback. unfold same_but_exts. cbn [p_names p_file_names p_files p_enums p_exts p_services p_messages].
  rewrite F3, F2, F5, F6, F7. repeat (split; [reflexivity || idtac|]); [|].
  - rewrite N1, filter_app. rewrite filter_none, filter_all; [reflexivity| |].
    + intros nd Hnd. rewrite Forall_forall in B2. specialize (B2 _ Hnd). unfold old_def, keep_def in *.
      destruct (d_kind (snd nd)); try exact B2; apply Nat.ltb_lt; exact B2.
    + intros nd Hnd. rewrite Forall_forall in N2. specialize (N2 _ Hnd). unfold new_def, keep_def in *.
      destruct (d_kind (snd nd)); try (apply Nat.ltb_ge; exact N2).
      destruct N2 as [N2 N3]. destruct (keeps_package (p_files p) (fst nd)) eqn:K; [|reflexivity].
      exfalso. revert N2. apply B3; [|exact K]. intros E. apply Hd. apply N3. exact E.
  - clear - F4. revert F4. generalize (firstn (of_msg (offsets_of p)) (p_messages p')) as l.
    generalize (p_messages p) as l0. induction 1 as [|a b la lb Hab _ IH]; [reflexivity|].
    cbn [map]. rewrite IH. f_equal. destruct Hab as [H1 [H2 [H3 [H4 [H5 [H6 [H7 [H8 _]]]]]]]].
    unfold strip. cbn. congruence.
Qed.

(** the extension lists that come out of the rollback *)
Lemma rollback_exts fs p p' i m' :
  frame fs (offsets_of p) p p' -> nth_error (p_messages (rollback (offsets_of p) p')) i = Some m' ->
  exists m xs, nth_error (p_messages p) i = Some m /\ Forall (fun x => (length (p_exts p) <= x)%nat) xs /\
    m_exts m' = filter (fun x => (x <? length (p_messages p))%nat) (m_exts m ++ xs).
Proof.
  intros [_ _ _ F4 _ _ _] H. cbn [rollback p_messages] in H. rewrite nth_error_map in H.
  destruct (nth_error (firstn (of_msg (offsets_of p)) (p_messages p')) i) as [b|] eqn:E; [|discriminate].
  cbn [option_map] in H. apply Some_inj in H. subst m'.
  destruct (F2_nth_r _ _ _ F4 _ _ E) as [m [E1 Hab]].
  destruct Hab as [_ [_ [_ [_ [_ [_ [_ [_ [xs [H1 H2]]]]]]]]]].
  exists m, xs. cbn [m_exts]. rewrite H1. auto.
Qed.
