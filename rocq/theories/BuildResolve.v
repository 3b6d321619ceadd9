(** What the second phase of a build leaves when it reports no error. *)
From Coq Require Import Permutation Sorted.
From Verif Require Import Base BaseProofs Value Descr Proto Build VisitProofs EventProofs BuildFrame BuildNames BuildQuiet.

(** ** Facts that stay true as a pool grows *)

Definition evals (p : pool) : list (list enum_value_inner) := map e_values (p_enums p).

Record later (n : nat) (p p' : pool) : Prop := {
  lt_files : same_upto n (p_files p) (p_files p');
  lt_raws : forall i x, nth_error (raws p) i = Some x -> nth_error (raws p') i = Some x;
  lt_mids : forall i x, nth_error (mids p) i = Some x -> nth_error (mids p') i = Some x;
  lt_eids : forall i x, nth_error (eids p) i = Some x -> nth_error (eids p') i = Some x;
  lt_evals : forall i x, nth_error (evals p) i = Some x -> nth_error (evals p') i = Some x
}.
Lemma later_refl n p : later n p p.
Proof. constructor; auto. apply same_upto_refl. Qed.
Lemma later_trans n p q r : later n p q -> later n q r -> later n p r.
Proof.
  intros [A B C D E] [A' B' C' D' E']. constructor; auto.
  intros f Hf. rewrite A', A by assumption. reflexivity.
Qed.
Lemma later_le n m p q : (m <= n)%nat -> later n p q -> later m p q.
Proof. intros H [A B C D E]. constructor; auto. intros f Hf. apply A. lia. Qed.

Section X.
Context (X : externs).

Lemma number_later n p p' m fd : later n p p' -> number_spec (raws p) (mids p) m fd -> number_spec (raws p') (mids p') m fd.
Proof.
  intros L [id [f [mp [A [B C]]]]]. exists id, f, mp.
  split; [apply (lt_mids _ _ _ L); exact A|]. split; [apply (lt_raws _ _ _ L); exact B|exact C].
Qed.
Lemma enum_number_later n p p' m z : later n p p' -> enum_number_spec (raws p) (eids p) m z -> enum_number_spec (raws p') (eids p') m z.
Proof.
  intros L [id [f [mp [A [B C]]]]]. exists id, f, mp.
  split; [apply (lt_eids _ _ _ L); exact A|]. split; [apply (lt_raws _ _ _ L); exact B|exact C].
Qed.
Lemma default_later n p p' k d r : later n p p' -> default_spec X (p_enums p) k d r -> default_spec X (p_enums p') k d r.
Proof.
  intros L H. destruct d as [s|]; [|exact H]. destruct H as [v [Hv H]]. exists v. split; [exact Hv|].
  destruct k; try exact H. destruct H as [en [x [A B]]].
  match type of A with nth_error _ ?ei = _ =>
    destruct (proj1 (nth_map_some e_values (p_enums p') ei (e_values en))) as [en' [A' E']] end.
  { apply (lt_evals _ _ _ L). unfold evals. rewrite nth_error_map, A. reflexivity. }
  exists en', x. split; [exact A'|]. rewrite E'. exact B.
Qed.

(** ** Fields *)

(** a field in a pool is what its declaration says, read with [names] *)
Definition fspec (names : list (str * def)) (p : pool) (m : dproto) (e : event) (fi : field_inner) : Prop :=
  match e with
  | EvField path full f msg i fd =>
      exists g k d, nth_error (p_files p) f = Some g /\
        number_spec (raws p) (mids p) msg fd /\
        type_spec names (fi_trans g) (fp_type fd) (fp_type_name fd) full k /\
        default_spec X (p_enums p) k (fp_default fd) d /\
        match fp_oneof fd with Some z => (0 <= z)%Z /\ (Z.to_nat z < length (dp_oneofs m))%nat | None => True end /\
        fi = field_of g path full f fd k d
  | _ => False
  end.
Definition ev_file_of (e : event) : nat :=
  match e with
  | EvFile _ i _ => i
  | EvMessage _ _ f _ _ _ | EvField _ _ f _ _ _ | EvOneof _ _ f _ _ _ | EvService _ _ f _ _
  | EvMethod _ _ f _ _ _ | EvEnum _ _ f _ _ _ | EvEnumValue _ _ f _ _ _ | EvExt _ _ f _ _ _ => f
  end.
Lemma fspec_later n names p p' m e fi : later n p p' -> (ev_file_of e < n)%nat ->
  fspec names p m e fi -> fspec names p' m e fi.
Proof.
  intros L Hn H. destruct e; cbn in *; try contradiction.
  destruct H as [g [k [d [A [B [C [D E]]]]]]]. exists g, k, d.
  split; [rewrite (lt_files _ _ _ L) by exact Hn; exact A|].
  split; [eapply number_later; eassumption|]. split; [exact C|].
  split; [eapply default_later; eassumption|exact E].
Qed.

Definition ev_fname (e : event) : str :=
  match e with EvField _ _ _ _ _ fd => fp_name fd | _ => [] end.
(** the positions of the fields in oneof [k] *)
Definition members_from (j : nat) (k : nat) (fds : list field_inner) : list nat :=
  concat (mapi j (fun j f => match f_oneof f with Some k' => if (k' =? k)%nat then [j] else [] | None => [] end) fds).
Definition members (k : nat) (fds : list field_inner) : list nat := members_from 0 k fds.

Lemma mapi_app {A B} (g : nat -> A -> B) a b : forall i, mapi i g (a ++ b) = mapi i g a ++ mapi (i + length a) g b.
Proof.
  induction a as [|x a IH]; intros i; cbn; [rewrite Nat.add_0_r; reflexivity|].
  rewrite IH. do 3 f_equal. lia.
Qed.
Lemma members_snoc k fds f : members k (fds ++ [f])
  = members k fds ++ match f_oneof f with Some k' => if (k' =? k)%nat then [length fds] else [] | None => [] end.
Proof.
  unfold members, members_from. rewrite mapi_app, concat_app. cbn. rewrite app_nil_r. reflexivity.
Qed.
Lemma members_from_in k fds : forall j0 j, In j (members_from j0 k fds) <->
  exists n f, j = (j0 + n)%nat /\ nth_error fds n = Some f /\ f_oneof f = Some k.
Proof.
  induction fds as [|f fds IH]; intros j0 j; unfold members_from; cbn [mapi concat].
  - split; [intros []|]. intros [[|n] [f [_ [E _]]]]; discriminate.
  - rewrite in_app_iff. fold (members_from (S j0) k fds). rewrite IH. split.
    + intros [H|[n [f' [E [H1 H2]]]]].
      * exists O, f. rewrite Nat.add_0_r. destruct (f_oneof f) as [k'|]; [|destruct H].
        destruct (Nat.eqb_spec k' k); [|destruct H]. destruct H as [<- |[]]. subst. auto.
      * exists (S n), f'. split; [lia|]. auto.
    + intros [[|n] [f' [E [H1 H2]]]].
      * left. cbn in H1. apply Some_inj in H1. subst f'. rewrite H2, Nat.eqb_refl. left. lia.
      * right. exists n, f'. split; [lia|]. auto.
Qed.
Lemma members_in k fds j : In j (members k fds) <-> exists f, nth_error fds j = Some f /\ f_oneof f = Some k.
Proof.
  unfold members. rewrite members_from_in. split.
  - intros [n [f [-> H]]]. exists f. exact H.
  - intros [f H]. exists j, f. auto.
Qed.

Record fields_ok (names : list (str * def)) (p : pool) (m : dproto) (ks : list event) (mi : message_inner) : Prop := {
  fo_fields : Forall2 (fspec names p m) ks (m_fields mi);
  fo_names : m_names mi = mapi 0 (fun j e => (ev_fname e, j)) ks;
  fo_names_nd : NoDup (map ev_fname ks);
  fo_jsons : m_jsons mi = mapi 0 (fun j f => (f_json f, j)) (m_fields mi);
  fo_jsons_nd : NoDup (map f_json (m_fields mi));
  fo_sorted : bt_sorted (m_numbers mi);
  fo_numbers : forall n j, bt_get n (m_numbers mi) = Some j <->
                 exists f, nth_error (m_fields mi) j = Some f /\ f_number f = n;
  fo_oneofs : forall k oi, nth_error (m_oneofs mi) k = Some oi -> o_fields oi = members k (m_fields mi)
}.

Lemma NoDup_snoc {A} (l : list A) a : NoDup l -> ~ In a l -> NoDup (l ++ [a]).
Proof.
  intros H1 H2. rewrite <- (rev_involutive (l ++ [a])). apply NoDup_rev. rewrite rev_app_distr. cbn.
  constructor; [|apply NoDup_rev; exact H1]. intros Hi. apply in_rev in Hi. exact (H2 Hi).
Qed.
Lemma map_mapi_fst {A B} (g : A -> B) l : forall i, map fst (mapi i (fun j a => (g a, j)) l) = map g l.
Proof. induction l as [|a l IH]; intros i; cbn; f_equal; auto. Qed.

Lemma fields_ok_add names p m ks mi e fld name oneof index :
  fields_ok names p m ks mi -> fspec names p m e fld -> ev_fname e = name -> f_oneof fld = oneof ->
  length (m_fields mi) = index ->
  bt_get (f_number fld) (m_numbers mi) = None -> assoc_s name (m_names mi) = None ->
  assoc_s (f_json fld) (m_jsons mi) = None ->
  fields_ok names p m (ks ++ [e]) (add_field fld name oneof index mi).
Proof.
  intros [F N Nd J Jd S B O] He En Eo Ei Hb Hn Hj.
  assert (length ks = index) as Ek by (rewrite (F2_len _ _ _ F); exact Ei).
  assert (forall g : message_inner -> message_inner, True) as _ by auto.
  unfold add_field.
  set (mi1 := match oneof with Some z => m_push_oneof_field z index mi | None => mi end).
  assert (m_fields mi1 = m_fields mi /\ m_numbers mi1 = m_numbers mi /\ m_names mi1 = m_names mi /\ m_jsons mi1 = m_jsons mi) as [E1 [E2 [E3 E4]]].
  { unfold mi1. destruct oneof; cbn; auto. }
  constructor; cbn [m_push_field m_fields m_names m_jsons m_numbers m_oneofs]; rewrite ?E1, ?E2, ?E3, ?E4.
  - apply Forall2_app; [exact F|]. constructor; [exact He|constructor].
  - rewrite assoc_put_new by exact Hn. rewrite mapi_app, N. cbn. rewrite Ek, En. reflexivity.
  - rewrite map_app. cbn. apply NoDup_snoc; [exact Nd|]. apply assoc_s_None in Hn.
    rewrite N, map_mapi_fst in Hn. rewrite En. exact Hn.
  - rewrite assoc_put_new by exact Hj. rewrite mapi_app, J. cbn. rewrite Ei. reflexivity.
  - rewrite map_app. cbn. apply NoDup_snoc; [exact Jd|]. apply assoc_s_None in Hj.
    rewrite J, map_mapi_fst in Hj. exact Hj.
  - apply bt_set_sorted. exact S.
  - intros n j. destruct (N.eq_dec n (f_number fld)) as [-> |Hne].
    + rewrite bt_get_set_same. split.
      * intros Q. apply Some_inj in Q. subst j. exists fld. split; [rewrite <- Ei; apply nth_app_new|reflexivity].
      * intros [f [Q1 Q2]]. f_equal. destruct (Nat.lt_ge_cases j (length (m_fields mi))) as [Hj1|Hj1].
        -- rewrite nth_app_l in Q1 by exact Hj1. exfalso.
           assert (bt_get (f_number fld) (m_numbers mi) = Some j) by (apply B; eauto). congruence.
        -- rewrite nth_error_app2 in Q1 by exact Hj1. destruct (j - length (m_fields mi))%nat as [|x] eqn:Ex; [lia|].
           destruct x; discriminate.
    + rewrite bt_get_set_other by exact Hne. rewrite B. split; intros [f [Q1 Q2]]; exists f; split; auto.
      * rewrite nth_app_l; [exact Q1|]. apply nth_error_Some. congruence.
      * destruct (Nat.lt_ge_cases j (length (m_fields mi))) as [Hj1|Hj1].
        -- rewrite nth_app_l in Q1 by exact Hj1. exact Q1.
        -- rewrite nth_error_app2 in Q1 by exact Hj1. destruct (j - length (m_fields mi))%nat as [|x] eqn:Ex.
           ++ cbn in Q1. apply Some_inj in Q1. subst f. congruence.
           ++ destruct x; discriminate.
  - intros k oi Hk. rewrite members_snoc, Eo, Ei. unfold mi1 in Hk. destruct oneof as [z|].
    + cbn [m_push_oneof_field m_oneofs] in Hk. rewrite nth_upd in Hk. destruct (Nat.eqb_spec z k).
      * destruct (nth_error (m_oneofs mi) k) as [oi'|] eqn:Q; [|discriminate].
        cbn in Hk. apply Some_inj in Hk. subst oi. cbn. f_equal. exact (O _ _ Q).
      * rewrite app_nil_r. exact (O _ _ Hk).
    + rewrite app_nil_r. exact (O _ _ Hk).
Qed.
Lemma fields_ok_later n names p p' m ks mi : later n p p' ->
  Forall (fun e => (ev_file_of e < n)%nat) ks ->
  fields_ok names p m ks mi -> fields_ok names p' m ks mi.
Proof.
  intros L Hk [F N Nd J Jd S B O]. constructor; auto. clear - L Hk F.
  induction F; constructor; inversion Hk; subst; auto. eapply fspec_later; eauto.
Qed.
(** the extensions of a message do not matter *)
Lemma fields_ok_ext names p m ks mi i : fields_ok names p m ks mi -> fields_ok names p m ks (m_push_ext i mi).
Proof. intros [F N Nd J Jd S B O]. constructor; auto. Qed.

(** ** Enum values *)

Definition ev_value (e : event) : str * Z :=
  match e with EvEnumValue _ _ _ _ _ x => x | _ => ([], 0%Z) end.
Definition num_le (a b : Z * nat) : Prop := (fst a <= fst b)%Z.

(** [slice::binary_search_by] on a sorted slice *)
Definition search_ok : Prop := forall l z, StronglySorted num_le l ->
  match x_search X l z with
  | (j, true) => exists k, nth_error l j = Some (z, k)
  | (j, false) => (j <= length l)%nat /\
      (forall kv, In kv (firstn j l) -> (fst kv < z)%Z) /\ (forall kv, In kv (skipn j l) -> (z < fst kv)%Z)
  end.

Record values_ok (p : pool) (alias : bool) (i : nat) (ks : list event) (ei : enum_inner) : Prop := {
  vo_names : e_names ei = mapi 0 (fun j e => (fst (ev_value e), j)) ks;
  vo_names_nd : NoDup (map (fun e => fst (ev_value e)) ks);
  vo_perm : Permutation (e_numbers ei) (mapi 0 (fun j e => (snd (ev_value e), j)) ks);
  vo_sorted : StronglySorted num_le (e_numbers ei);
  vo_alias : alias = false -> NoDup (map (fun e => snd (ev_value e)) ks);
  vo_reserved : Forall (fun e => enum_number_spec (raws p) (eids p) i (snd (ev_value e))) ks
}.

Lemma ss_app l1 l2 : StronglySorted num_le l1 -> StronglySorted num_le l2 ->
  (forall a b, In a l1 -> In b l2 -> num_le a b) -> StronglySorted num_le (l1 ++ l2).
Proof.
  intros H1 H2 H. induction l1 as [|a l1 IH]; cbn; [exact H2|].
  inversion H1; subst. constructor.
  - apply IH; [assumption|]. intros x y Hx Hy. apply H; [right; exact Hx|exact Hy].
  - apply Forall_app. split; [assumption|]. apply Forall_forall. intros b Hb. apply H; [left; reflexivity|exact Hb].
Qed.
Lemma ss_app_inv l1 l2 : StronglySorted num_le (l1 ++ l2) ->
  StronglySorted num_le l1 /\ StronglySorted num_le l2 /\ (forall a b, In a l1 -> In b l2 -> num_le a b).
Proof.
  induction l1 as [|a l1 IH]; cbn; intros H.
  - split; [constructor|]. split; [exact H|intros a b []].
  - inversion H; subst. destruct (IH H2) as [A [B C]]. apply Forall_app in H3. destruct H3 as [F1 F2].
    split; [constructor; assumption|]. split; [exact B|].
    intros x y [<- | Hx] Hy; [rewrite Forall_forall in F2; auto|auto].
Qed.
Lemma insert_sorted l z j pos found : search_ok -> StronglySorted num_le l ->
  x_search X l z = (pos, found) -> StronglySorted num_le (insert_at pos (z, j) l).
Proof.
  intros SO Hs E. specialize (SO _ z Hs). rewrite E in SO. unfold insert_at.
  pose proof Hs as Hs'. rewrite <- (firstn_skipn pos l) in Hs'. apply ss_app_inv in Hs'. destruct Hs' as [A [B C]].
  assert ((forall kv, In kv (firstn pos l) -> (fst kv <= z)%Z) /\ (forall kv, In kv (skipn pos l) -> (z <= fst kv)%Z)) as [L R].
  { destruct found.
    - destruct SO as [k Hk].
      assert (exists r, skipn pos l = (z, k) :: r) as [r Er].
      { clear - Hk. revert l Hk. induction pos as [|pos IH]; intros [|a l] Hk; cbn in *; try discriminate.
        - apply Some_inj in Hk. subst. eauto.
        - apply IH. exact Hk. }
      split.
      + intros kv Hkv. exact (C kv (z, k) Hkv ltac:(rewrite Er; left; reflexivity)).
      + intros kv Hkv. rewrite Er in *. destruct Hkv as [<- | Hkv]; [cbn; lia|].
        inversion B; subst. rewrite Forall_forall in H2. exact (H2 _ Hkv).
    - destruct SO as [_ [L R]]. split; intros kv Hkv; [specialize (L _ Hkv)|specialize (R _ Hkv)]; lia. }
  apply ss_app; [exact A| |].
  - constructor; [exact B|]. apply Forall_forall. intros kv Hkv. exact (R _ Hkv).
  - intros a b Ha [<- | Hb]; [exact (L _ Ha)|exact (C _ _ Ha Hb)].
Qed.
Lemma insert_perm {A} pos (a : A) l : Permutation (insert_at pos a l) (l ++ [a]).
Proof.
  unfold insert_at. rewrite <- (firstn_skipn pos l) at 3. rewrite <- app_assoc.
  apply Permutation_app_head. apply Permutation_cons_append.
Qed.
Lemma map_mapi_snd {A} (g : A -> Z) l : forall i, map fst (mapi i (fun j a => (g a, j)) l) = map g l.
Proof. induction l as [|a l IH]; intros i; cbn; f_equal; auto. Qed.

Lemma values_ok_add p alias i ks ei e pos found :
  search_ok -> values_ok p alias i ks ei ->
  enum_number_spec (raws p) (eids p) i (snd (ev_value e)) ->
  x_search X (e_numbers ei) (snd (ev_value e)) = (pos, found) ->
  (found = true -> alias = true) -> assoc_s (fst (ev_value e)) (e_names ei) = None ->
  values_ok p alias i (ks ++ [e])
    (EnumI (e_id ei) (e_parent ei) (e_values ei) (insert_at pos (snd (ev_value e), length ks) (e_numbers ei))
           (assoc_put (fst (ev_value e)) (length ks) (e_names ei)) (e_alias ei)).
Proof.
  intros SO [N Nd P S Al R] Hn E Ha Hnm. constructor; cbn [e_names e_numbers].
  - rewrite assoc_put_new by exact Hnm. rewrite mapi_app, N. reflexivity.
  - rewrite map_app. cbn. apply NoDup_snoc; [exact Nd|].
    apply assoc_s_None in Hnm. rewrite N, (map_mapi_fst (fun e => fst (ev_value e))) in Hnm. exact Hnm.
  - rewrite insert_perm, mapi_app. cbn. apply Permutation_app_tail. exact P.
  - eapply insert_sorted; eassumption.
  - intros Hal. rewrite map_app. cbn. apply NoDup_snoc; [apply Al; exact Hal|].
    specialize (SO _ (snd (ev_value e)) S). rewrite E in SO. destruct found; [specialize (Ha eq_refl); congruence|].
    destruct SO as [_ [L Rr]]. intros Hi.
    rewrite <- (map_mapi_snd (fun e => snd (ev_value e)) ks 0) in Hi.
    apply (Permutation_in _ (Permutation_map fst (Permutation_sym P))) in Hi.
    apply in_map_iff in Hi. destruct Hi as [kv [E1 E2]].
    rewrite <- (firstn_skipn pos (e_numbers ei)) in E2. apply in_app_or in E2.
    destruct E2 as [E2|E2]; [specialize (L _ E2)|specialize (Rr _ E2)]; lia.
  - apply Forall_app. split; [exact R|]. constructor; [exact Hn|constructor].
Qed.
Lemma values_ok_later n p p' alias i ks ei : later n p p' -> values_ok p alias i ks ei -> values_ok p' alias i ks ei.
Proof.
  intros L [N Nd P S Al R]. constructor; auto.
  eapply Forall_impl; [|exact R]. intros e. apply enum_number_later with (n := n). exact L.
Qed.

(** ** Methods and extensions *)

Definition mspec (names : list (str * def)) (p : pool) (e : event) (me : method_inner) : Prop :=
  match e with
  | EvMethod path full f s i m =>
      exists g inp out, nth_error (p_files p) f = Some g /\
        message_spec names (fi_trans g) full (mp_input m) inp /\
        message_spec names (fi_trans g) full (mp_output m) out /\
        me = MethodI (mk_id f path full (mp_name m)) inp out
  | _ => False
  end.
Definition xspec (names : list (str * def)) (p : pool) (e : event) (xi : ext_inner) : Prop :=
  match e with
  | EvExt path full f parent i fd =>
      exists g ex k d, nth_error (p_files p) f = Some g /\
        message_spec names (fi_trans g) full (the_extendee fd) ex /\
        number_spec (raws p) (mids p) ex fd /\
        type_spec names (fi_trans g) (fp_type fd) (fp_type_name fd) full k /\
        default_spec X (p_enums p) k (fp_default fd) d /\
        xi = ext_of g path full f parent fd ex k d
  | _ => False
  end.
Lemma mspec_later n names p p' e me : later n p p' -> (ev_file_of e < n)%nat -> mspec names p e me -> mspec names p' e me.
Proof.
  intros L Hn H. destruct e; cbn in *; try contradiction. destruct H as [g [i [o [A B]]]]. exists g, i, o.
  split; [rewrite (lt_files _ _ _ L) by exact Hn; exact A|exact B].
Qed.
Lemma xspec_later n names p p' e me : later n p p' -> (ev_file_of e < n)%nat -> xspec names p e me -> xspec names p' e me.
Proof.
  intros L Hn H. destruct e; cbn in *; try contradiction. destruct H as [g [ex [k [d [A [B [C [D [E F]]]]]]]]].
  exists g, ex, k, d. split; [rewrite (lt_files _ _ _ L) by exact Hn; exact A|]. split; [exact B|].
  split; [eapply number_later; eassumption|]. split; [exact D|]. split; [eapply default_later; eassumption|exact F].
Qed.
End X.

Lemma file_lt o done e : scoped o done -> In e done -> (ev_file_of e < of_file (adv o done))%nat.
Proof.
  intros Hs He. destruct (scoped_in _ _ Hs _ He) as [o' [_ [B [C1 _]]]].
  destruct e; cbn in *; lia.
Qed.
Lemma kids_in k i es e : In e (kids k i es) -> In e es /\ owner e = Some (k, i).
Proof.
  unfold kids. rewrite filter_In. intros [H1 H2]. split; [exact H1|]. unfold owned in H2.
  destruct (owner e) as [[k' i']|]; [|discriminate]. apply andb_true_iff in H2. destruct H2 as [A B].
  apply Nat.eqb_eq in A. apply Nat.eqb_eq in B. subst. reflexivity.
Qed.
Lemma kids_file_lt o done k i : scoped o done -> Forall (fun e => (ev_file_of e < of_file (adv o done))%nat) (kids k i done).
Proof. intros Hs. apply Forall_forall. intros e He. apply file_lt; [exact Hs|apply (kids_in _ _ _ _ He)]. Qed.

(** the extensions of message [i] among those from [b] on *)
Definition ext_ids (b : nat) (xs : list ext_inner) (i : nat) : list nat :=
  filter (fun j => match nth_error xs j with Some x => (x_extendee x =? i)%nat | None => false end)
         (seq b (length xs - b)).
Lemma filter_ext_in' {A} (P Q : A -> bool) l : (forall a, In a l -> P a = Q a) -> filter P l = filter Q l.
Proof.
  induction l as [|a l IH]; cbn; intros H; [reflexivity|]. rewrite H by auto. rewrite IH by auto. reflexivity.
Qed.
Lemma ext_ids_snoc b xs x i : (b <= length xs)%nat ->
  ext_ids b (xs ++ [x]) i = ext_ids b xs i ++ (if (x_extendee x =? i)%nat then [length xs] else []).
Proof.
  intros H. unfold ext_ids. rewrite app_length. cbn [length].
  replace (length xs + 1 - b)%nat with (length xs - b + 1)%nat by lia. rewrite seq_app, filter_app. f_equal.
  - apply filter_ext_in'. intros a Ha. apply in_seq in Ha. rewrite nth_app_l by lia. reflexivity.
  - replace (b + (length xs - b))%nat with (length xs) by lia. cbn [seq filter].
    rewrite nth_app_new. reflexivity.
Qed.

Section RI.
  Context (X : externs) (o : offsets) (p0 p1 : pool) (evs : list event).

  Definition Cfiles (done : list event) (p : pool) : Prop :=
    forall path i f, In (EvFile path i f) done ->
      exists sy deps trans, file_syntax f = Some sy /\ nth_error (p_files p) i = Some (FileI sy f deps trans) /\
        deps_spec (p_file_names p) (raws p) i f deps trans.
  Definition Cmsgs (done : list event) (p : pool) : Prop :=
    forall path full f parent i m, In (EvMessage path full f parent i m) evs ->
      exists mi, nth_error (p_messages p) i = Some mi /\ m_id mi = mk_id f path full (dp_name m) /\
        m_parent mi = parent /\ m_map_entry mi = dp_map_entry m /\
        map o_id (m_oneofs mi) = map (fun e => o_id (mk_oneof e)) (kids 1 i evs) /\
        fields_ok X (p_names p) p m (kids 0 i done) mi.
  Definition Cextof (p : pool) : Prop :=
    forall i m1, nth_error (p_messages p1) i = Some m1 ->
      exists mi, nth_error (p_messages p) i = Some mi /\ m_exts mi = m_exts m1 ++ ext_ids (of_ext o) (p_exts p) i.
  Definition Cenums (done : list event) (p : pool) : Prop :=
    forall path full f parent i e, In (EvEnum path full f parent i e) evs ->
      exists ei, nth_error (p_enums p) i = Some ei /\ e_id ei = mk_id f path full (ep_name e) /\
        e_parent ei = parent /\ e_values ei = map mk_value (kids 3 i evs) /\ e_alias ei = allow_alias e /\
        values_ok p (allow_alias e) i (kids 3 i done) ei.
  Definition Cexts (done : list event) (p : pool) : Prop :=
    forall path full f parent i fd, In (EvExt path full f parent i fd) done ->
      exists x, nth_error (p_exts p) i = Some x /\ xspec X (p_names p) p (EvExt path full f parent i fd) x.
  Definition Csvcs (done : list event) (p : pool) : Prop :=
    forall path full f i s, In (EvService path full f i s) done ->
      exists si, nth_error (p_services p) i = Some si /\ s_id si = mk_id f path full (sp_name s) /\
        Forall2 (mspec (p_names p) p) (kids 2 i done) (s_methods si).

  Record RI (done : list event) (p : pool) : Prop := {
    ri_names : p_names p = p_names p1;
    ri_fnames : p_file_names p = p_file_names p1;
    ri_raws : raws p = raws p1;
    ri_syn : map fi_syntax (p_files p) = map fi_syntax (p_files p1);
    ri_todo : forall i, (of_file (adv o done) <= i)%nat -> nth_error (p_files p) i = nth_error (p_files p1) i;
    ri_files : Cfiles done p;
    ri_mids : mids p = mids p1;
    ri_msgs : Cmsgs done p;
    ri_extof : Cextof p;
    ri_eids : eids p = eids p1;
    ri_evals : evals p = evals p1;
    ri_enums : Cenums done p;
    ri_nexts : length (p_exts p) = of_ext (adv o done);
    ri_exts : Cexts done p;
    ri_nsvcs : length (p_services p) = of_service (adv o done);
    ri_svcs : Csvcs done p
  }.

  Lemma Cmsgs_keep done e p p' :
    scoped o done -> later (of_file (adv o done)) p p' -> p_names p' = p_names p -> p_messages p' = p_messages p ->
    (forall i, owned 0 i e = false) -> Cmsgs done p -> Cmsgs (done ++ [e]) p'.
  Proof.
    intros Hs L En Em Ho H path full f parent i m Hi. destruct (H _ _ _ _ _ _ Hi) as [mi [A [B [C [D [E F]]]]]].
    exists mi. rewrite Em, En, kids_snoc, Ho, app_nil_r. repeat (split; [assumption|]).
    eapply fields_ok_later; [exact L|apply kids_file_lt; exact Hs|exact F].
  Qed.
  Lemma Cenums_keep done e p p' :
    scoped o done -> later (of_file (adv o done)) p p' -> p_enums p' = p_enums p ->
    (forall i, owned 3 i e = false) -> Cenums done p -> Cenums (done ++ [e]) p'.
  Proof.
    intros Hs L Em Ho H path full f parent i m Hi. destruct (H _ _ _ _ _ _ Hi) as [mi [A [B [C [D [E F]]]]]].
    exists mi. rewrite Em, kids_snoc, Ho, app_nil_r. repeat (split; [assumption|]).
    eapply values_ok_later; [exact L|exact F].
  Qed.
  Lemma Cexts_keep done e p p' :
    scoped o done -> later (of_file (adv o done)) p p' -> p_names p' = p_names p -> p_exts p' = p_exts p ->
    (forall path full f parent i m, e <> EvExt path full f parent i m) -> Cexts done p -> Cexts (done ++ [e]) p'.
  Proof.
    intros Hs L En Em Ho H path full f parent i fd Hi. apply in_snoc in Hi.
    destruct Hi as [Hi|Hi]; [|exfalso; exact (Ho _ _ _ _ _ _ (eq_sym Hi))].
    destruct (H _ _ _ _ _ _ Hi) as [x [A B]]. exists x. rewrite Em, En. split; [exact A|].
    eapply xspec_later; [exact L|exact (file_lt _ _ _ Hs Hi)|exact B].
  Qed.
  Lemma Csvcs_keep done e p p' :
    scoped o done -> later (of_file (adv o done)) p p' -> p_names p' = p_names p -> p_services p' = p_services p ->
    (forall path full f i m, e <> EvService path full f i m) -> (forall i, owned 2 i e = false) ->
    Csvcs done p -> Csvcs (done ++ [e]) p'.
  Proof.
    intros Hs L En Em Ho Ho2 H path full f i s Hi. apply in_snoc in Hi.
    destruct Hi as [Hi|Hi]; [|exfalso; exact (Ho _ _ _ _ _ (eq_sym Hi))].
    destruct (H _ _ _ _ _ Hi) as [x [A [B C]]]. exists x. rewrite Em, En. split; [exact A|]. split; [exact B|].
    rewrite kids_snoc, Ho2, app_nil_r. pose proof (kids_file_lt o done 2 i Hs) as F. clear - L C F.
    induction C; constructor; inversion F; subst; auto; eapply mspec_later; eauto.
  Qed.
  Lemma Cfiles_keep done e p p' :
    scoped o done -> same_upto (of_file (adv o done)) (p_files p) (p_files p') ->
    p_file_names p' = p_file_names p -> raws p' = raws p ->
    (forall path i f, e <> EvFile path i f) -> Cfiles done p -> Cfiles (done ++ [e]) p'.
  Proof.
    intros Hs Hu En Er Ho H path i f Hi. apply in_snoc in Hi.
    destruct Hi as [Hi|Hi]; [|exfalso; exact (Ho _ _ _ (eq_sym Hi))].
    destruct (H _ _ _ Hi) as [sy [deps [trans [A [B C]]]]]. exists sy, deps, trans.
    rewrite En, Er, Hu; [auto|]. exact (file_lt _ _ _ Hs Hi).
  Qed.

  Lemma later_msgs n p ms : map m_id ms = mids p -> later n p (set_messages ms p).
  Proof. intros H. constructor; auto; try apply same_upto_refl. unfold mids at 2. cbn. rewrite H. auto. Qed.
  Lemma later_enums n p es : map e_id es = eids p -> map e_values es = evals p -> later n p (set_enums es p).
  Proof.
    intros H1 H2. constructor; auto; try apply same_upto_refl.
    - unfold eids at 2. cbn. rewrite H1. auto.
    - unfold evals at 2. cbn. rewrite H2. auto.
  Qed.
  Lemma map_upd {A B} (h : A -> B) i g l : (forall a, h (g a) = h a) -> map h (upd i g l) = map h l.
  Proof. intros E. revert i. induction l as [|a l IH]; intros [|i]; cbn; f_equal; auto. Qed.

  Lemma map_upd_const {A B} (h : A -> B) a' l : forall i a, nth_error l i = Some a -> h a' = h a ->
    map h (upd i (fun _ => a') l) = map h l.
  Proof.
    induction l as [|x l IH]; intros [|i] a Ha E; cbn in *; try discriminate.
    - apply Some_inj in Ha. subst. f_equal. exact E.
    - f_equal. eapply IH; eassumption.
  Qed.

  Context (SO : search_ok X) (fuel : nat) (Hs : scoped o evs)
          (Hl : Forall (located (nth_error (raws p1))) evs) (HN : NI o p0 evs p1)
          (Hcl : closed evs) (Hcm : complete evs) (Hz : sizes p0 o).

  Lemma step_event done e rest : evs = done ++ e :: rest ->
    scoped o done /\ scoped1 (adv o done) e /\ In e evs.
  Proof.
    intros E. pose proof Hs as H. rewrite E in H. apply adv1_scoped_app in H. destruct H as [A B].
    split; [exact A|]. split; [exact B|]. rewrite E. apply in_or_app. right. left. reflexivity.
  Qed.

  Ltac clauses HR := destruct HR as [r1 r2 r3 r4 r5 r6 r7 r8 r9 r10 r11 r12 r13 r14 r15 r16].

  Lemma RI_skip done e p :
    scoped o done -> RI done p -> of_file (adv1 (adv o done) e) = of_file (adv o done) ->
    of_ext (adv1 (adv o done) e) = of_ext (adv o done) -> of_service (adv1 (adv o done) e) = of_service (adv o done) ->
    (forall k i, owned k i e = true -> k = 1%nat) ->
    (forall path i f, e <> EvFile path i f) -> (forall path full f i m, e <> EvService path full f i m) ->
    (forall path full f parent i m, e <> EvExt path full f parent i m) ->
    RI (done ++ [e]) p.
  Proof.
    intros Hd HR O1 O2 O3 Ow Nf Ns Nx. clauses HR.
    assert (forall k i, k <> 1%nat -> owned k i e = false) as Ow'.
    { intros k i Hk. destruct (owned k i e) eqn:E; [|reflexivity]. exfalso. exact (Hk (Ow _ _ E)). }
    constructor; rewrite ?adv_snoc, ?O1, ?O2, ?O3; auto.
    - eapply Cfiles_keep; eauto using same_upto_refl.
    - eapply Cmsgs_keep; eauto using later_refl.
    - eapply Cenums_keep; eauto using later_refl.
    - eapply Cexts_keep; eauto using later_refl.
    - eapply Csvcs_keep; eauto using later_refl.
  Qed.

  Lemma RI_step done e rest pa pb :
    evs = done ++ e :: rest -> RI done pa -> resolve_step X fuel e (V pa []) = Ok (V pb []) -> RI (done ++ [e]) pb.
  Proof.
    intros Eevs HR H. destruct (step_event _ _ _ Eevs) as [Hd [He Hin]].
    pose proof (proj1 (Forall_forall _ _) Hl _ Hin) as Hloc.
    assert (forall f raw, nth_error (raws p1) f = Some raw -> exists g, nth_error (p_files pa) f = Some g /\ fi_raw g = raw) as Hraw.
    { intros f raw Hf. rewrite <- (ri_raws _ _ HR) in Hf. apply nth_map_some in Hf. exact Hf. }
    destruct e; cbn [resolve_step] in H;
      try (inversion H; subst; apply RI_skip; auto; try discriminate;
           intros k i; unfold owned; cbn; try discriminate;
           intros Q; apply andb_true_iff in Q; destruct Q as [Q _]; apply Nat.eqb_eq in Q; exact Q).
    - (* file *)
      clauses HR.
      cbn in He. subst index.
      destruct (ni_files _ _ _ _ _ (ni_nf _ _ _ _ HN) _ _ _ Hin) as [sy [Hsy Hf1]].
      assert (nth_error (p_files pa) (of_file (adv o done)) = Some (FileI sy f [] [])) as Hfa by (rewrite r5 by lia; exact Hf1).
      apply file_quiet with (sy := sy) in H; [|exact Hfa]. destruct H as [deps [trans [DS ->]]].
      set (i := of_file (adv o done)) in *.
      assert (raws (set_files (p_file_names pa) (upd i (fun _ => FileI sy f deps trans) (p_files pa)) pa) = raws pa) as Er.
      { unfold raws. cbn [set_files p_files]. eapply map_upd_const; [exact Hfa|reflexivity]. }
      assert (same_upto i (p_files pa) (upd i (fun _ => FileI sy f deps trans) (p_files pa))) as Su.
      { intros j Hj. rewrite nth_upd. destruct (Nat.eqb_spec i j); [lia|reflexivity]. }
      assert (later i pa (set_files (p_file_names pa) (upd i (fun _ => FileI sy f deps trans) (p_files pa)) pa)) as La.
      { constructor; auto. rewrite Er. auto. }
      constructor; rewrite ?Er; cbn [set_files p_names p_file_names p_files p_messages p_enums p_exts p_services]; auto.
      + rewrite <- r4. eapply map_upd_const; [exact Hfa|reflexivity].
      + intros j. rewrite adv_snoc. cbn [adv1 of_file]. intros Hj. rewrite nth_upd.
        destruct (Nat.eqb_spec i j) as [Eij|]; [unfold i in Eij; lia|]. apply r5. lia.
      + intros path' i' f' Hi. apply in_snoc in Hi. destruct Hi as [Hi|Hi].
        * destruct (r6 _ _ _ Hi) as [sy' [d' [t' [A [B C]]]]]. exists sy', d', t'. split; [exact A|].
          rewrite Er. cbn [set_files p_names p_file_names p_files]. split; [|exact C].
          rewrite Su; [exact B|]. exact (file_lt _ _ _ Hd Hi).
        * inversion Hi; subst path' i' f'. exists sy, deps, trans. split; [exact Hsy|].
          rewrite Er. cbn [set_files p_names p_file_names p_files]. split; [|exact DS].
          rewrite nth_upd, Nat.eqb_refl, Hfa. reflexivity.
      + eapply Cmsgs_keep; eauto.
      + eapply Cenums_keep; eauto.
      + rewrite adv_snoc. exact r13.
      + eapply Cexts_keep; eauto. discriminate.
      + rewrite adv_snoc. exact r15.
      + eapply Csvcs_keep; eauto. discriminate.
    - (* field *)
      cbn [located] in Hloc. destruct Hloc as [raw [Hf [Hff _]]].
      destruct (Hraw _ _ Hf) as [g [Hg1 Hg2]].
      destruct (field_quiet X _ _ _ _ _ _ _ _ _ _ Hg1 Hg2 Hff H) as [m [k [d [Hm [Hlen [Hnum [Hty [Hd' [Hone [Hb [Hn [Hj ->]]]]]]]]]]]].
      clauses HR.
      set (fld := field_of g path full file f k d) in *.
      set (pb := set_messages (upd message (add_field fld (fp_name f) (option_map Z.to_nat (fp_oneof f)) index) (p_messages pa)) pa).
      assert (forall a, m_id (add_field fld (fp_name f) (option_map Z.to_nat (fp_oneof f)) index a) = m_id a) as Eid.
      { intros a. unfold add_field. destruct (option_map _ _); reflexivity. }
      assert (map m_id (upd message (add_field fld (fp_name f) (option_map Z.to_nat (fp_oneof f)) index) (p_messages pa)) = mids pa) as Em.
      { apply map_upd. exact Eid. }
      assert (later (of_file (adv o done)) pa pb) as La by (apply later_msgs; exact Em).
      assert (kids 0 message evs <> [] /\ exists path' full' f' parent' m', In (EvMessage path' full' f' parent' message m') evs) as [_ [path' [full' [f' [parent' [m' Hm']]]]]].
      { split.
        - intros K. assert (In (EvField path full file message index f) (kids 0 message evs)) as Q; [|rewrite K in Q; destruct Q].
          unfold kids. apply filter_In. split; [exact Hin|]. unfold owned. cbn. rewrite Nat.eqb_refl. reflexivity.
        - destruct (Hcl _ 0%nat message Hin eq_refl) as [h [Hh Hhd]].
          destruct Hhd as [[l Hhd]|[Q _]]; [|discriminate].
          destruct h; cbn in Hhd; try contradiction.
          + destruct Hhd as [Hhd|[Hhd|[]]]; inversion Hhd; subst. repeat eexists; exact Hh.
          + destruct Hhd as [Hhd|[]]; inversion Hhd. }
      constructor; cbn [pb set_messages p_names p_file_names p_files p_messages p_enums p_exts p_services]; rewrite ?adv_snoc; auto.
      + eapply Cfiles_keep; eauto using same_upto_refl. discriminate.
      + unfold mids. cbn [pb set_messages p_messages]. rewrite Em. exact r7.
      + intros path'' full'' f'' parent'' i'' m'' Hi''.
        destruct (r8 _ _ _ _ _ _ Hi'') as [mi [A [B [C [D [E F]]]]]].
        cbn [pb set_messages p_messages p_names]. rewrite nth_upd, A, kids_snoc. unfold owned. cbn [owner].
        rewrite Nat.eqb_refl, (Nat.eqb_sym i''). cbn [andb].
        assert (fields_ok X (p_names pa) pb m'' (kids 0 i'' done) mi) as F'.
        { eapply fields_ok_later; [exact La|apply kids_file_lt; exact Hd|exact F]. }
        destruct (Nat.eqb_spec message i'') as [<- |Hne].
        * cbn [option_map]. eexists. split; [reflexivity|]. assert (mi = m) as -> by congruence.
          split; [rewrite Eid; exact B|].
          split; [unfold add_field; destruct (option_map _ _); exact C|].
          split; [unfold add_field; destruct (option_map _ _); exact D|].
          split.
          { rewrite <- E. unfold add_field. destruct (option_map _ _); cbn; [|reflexivity].
            apply map_upd. reflexivity. }
          apply fields_ok_add; auto; try reflexivity.
          cbn [fspec]. exists g, k, d. split; [exact Hg1|].
          split; [eapply number_later; [exact La|exact Hnum]|]. split; [exact Hty|]. split; [exact Hd'|].
          split; [|reflexivity].
          destruct (fp_oneof f) as [z|]; [|exact I]. destruct Hone as [Z1 Z2]. split; [exact Z1|].
          apply (f_equal (@length _)) in E. rewrite !map_length in E. rewrite E in Z2.
          destruct (Hcm _ Hi'') as [Hk _]. cbn [heads] in Hk.
          rewrite (Hk 1%nat message _ ltac:(right; left; reflexivity)) in Z2. unfold g_oneofs in Z2.
          rewrite mapi_length in Z2. exact Z2.
        * exists mi. rewrite app_nil_r. split; [reflexivity|]. repeat (split; [assumption|]). exact F'.
      + intros i m1 Hm1. destruct (r9 _ _ Hm1) as [mi [A B]]. cbn [pb set_messages p_messages p_exts].
        rewrite nth_upd, A. destruct (message =? i)%nat; [|eauto].
        eexists. split; [reflexivity|]. rewrite <- B. unfold add_field. destruct (option_map _ _); reflexivity.
      + eapply Cenums_keep; eauto.
      + eapply Cexts_keep; eauto. discriminate.
      + eapply Csvcs_keep; eauto. discriminate.
    - (* service *)
      unfold resolve_service in H. apply rbind_ok in H. destruct H as [v1 [H1 H]].
      apply assert_ok in H1. destruct H1 as [-> Hlen]. apply Nat.eqb_eq in Hlen. inversion H as [Epb]. clear H.
      clauses HR.
      cbn in He. destruct He as [He1 ->].
      set (pb' := set_services (p_services pa ++ [ServiceI (mk_id file path full (sp_name s)) []]) pa).
      assert (later (of_file (adv o done)) pa pb') as La by (constructor; auto using same_upto_refl).
      constructor; cbn [pb' set_services p_names p_file_names p_files p_messages p_enums p_exts p_services]; rewrite ?adv_snoc; auto.
      + eapply Cfiles_keep; eauto using same_upto_refl. discriminate.
      + eapply Cmsgs_keep; eauto.
      + eapply Cenums_keep; eauto.
      + eapply Cexts_keep; eauto. discriminate.
      + rewrite app_length, r15. cbn. lia.
      + intros path' full' f' i' s' Hi'. cbn [pb' set_services p_services]. rewrite kids_snoc_head by reflexivity.
        apply in_snoc in Hi'. destruct Hi' as [Hi'|Hi'].
        * destruct (r16 _ _ _ _ _ Hi') as [si [A [B C]]]. exists si. split; [|split; [exact B|]].
          -- rewrite nth_app_l; [exact A|]. apply nth_error_Some. congruence.
          -- pose proof (kids_file_lt o done 2 i' Hd) as F. clear - La C F.
             induction C; constructor; inversion F; subst; auto; eapply mspec_later; eauto.
        * inversion Hi'; subst path' full' f' i' s'. eexists. split; [rewrite <- r15; apply nth_app_new|].
          split; [reflexivity|]. rewrite (kids_fresh o) by (cbn; try exact Hd; lia). constructor.
    - (* method *)
      cbn [located] in Hloc. destruct Hloc as [raw [Hf _]]. destruct (Hraw _ _ Hf) as [g [Hg1 Hg2]].
      destruct (method_quiet _ _ _ _ _ _ _ _ _ Hg1 H) as [s [i [out [Hsv [Hlen [M1 [M2 ->]]]]]]].
      clauses HR.
      set (me := MethodI (mk_id file path full (mp_name m)) i out) in *.
      set (pb' := set_services (upd service (fun s => ServiceI (s_id s) (s_methods s ++ [me])) (p_services pa)) pa).
      assert (later (of_file (adv o done)) pa pb') as La by (constructor; auto using same_upto_refl).
      constructor; cbn [pb' set_services p_names p_file_names p_files p_messages p_enums p_exts p_services]; rewrite ?adv_snoc; auto.
      + eapply Cfiles_keep; eauto using same_upto_refl. discriminate.
      + eapply Cmsgs_keep; eauto.
      + eapply Cenums_keep; eauto.
      + eapply Cexts_keep; eauto. discriminate.
      + rewrite upd_length. exact r15.
      + intros path' full' f' i' s' Hi'. cbn [pb' set_services p_services p_names].
        apply in_snoc in Hi'. destruct Hi' as [Hi'|Hi']; [|discriminate].
        destruct (r16 _ _ _ _ _ Hi') as [si [A [B C]]].
        assert (Forall2 (mspec (p_names pa) pb') (kids 2 i' done) (s_methods si)) as C'.
        { pose proof (kids_file_lt o done 2 i' Hd) as F. clear - La C F.
          induction C; constructor; inversion F; subst; auto; eapply mspec_later; eauto. }
        rewrite nth_upd, A, kids_snoc. unfold owned. cbn [owner]. rewrite Nat.eqb_refl, (Nat.eqb_sym i'). cbn [andb].
        destruct (Nat.eqb_spec service i') as [<- |Hne].
        * cbn [option_map]. eexists. split; [reflexivity|]. split; [exact B|]. cbn [s_methods].
          apply Forall2_app; [exact C'|]. constructor; [|constructor]. cbn [mspec].
          exists g, i, out. auto.
        * exists si. rewrite app_nil_r. auto.
    - (* enum value *)
      destruct (enum_value_quiet X _ _ _ _ _ _ _ _ H) as [en [pos [found [Hen [Hnum [Hse [Ha [Hn ->]]]]]]]].
      clauses HR.
      set (g := fun e => EnumI (e_id e) (e_parent e) (e_values e) (insert_at pos (snd v, index) (e_numbers e))
                               (assoc_put (fst v) index (e_names e)) (e_alias e)) in *.
      set (pb' := set_enums (upd enum g (p_enums pa)) pa).
      assert (map e_id (upd enum g (p_enums pa)) = eids pa) as E1 by (apply map_upd; reflexivity).
      assert (map e_values (upd enum g (p_enums pa)) = evals pa) as E2 by (apply map_upd; reflexivity).
      assert (later (of_file (adv o done)) pa pb') as La by (apply later_enums; assumption).
      constructor; cbn [pb' set_enums p_names p_file_names p_files p_messages p_enums p_exts p_services]; rewrite ?adv_snoc; auto.
      + eapply Cfiles_keep; eauto using same_upto_refl. discriminate.
      + eapply Cmsgs_keep; eauto.
      + unfold eids. cbn [pb' set_enums p_enums]. rewrite E1. exact r10.
      + unfold evals. cbn [pb' set_enums p_enums]. rewrite E2. exact r11.
      + intros path' full' f' parent' i' e' Hi'. destruct (r12 _ _ _ _ _ _ Hi') as [ei [A [B [C [D [E F]]]]]].
        assert (values_ok pb' (allow_alias e') i' (kids 3 i' done) ei) as F' by (eapply values_ok_later; eassumption).
        cbn [pb' set_enums p_enums]. rewrite nth_upd, A, kids_snoc. unfold owned. cbn [owner].
        rewrite Nat.eqb_refl, (Nat.eqb_sym i'). cbn [andb].
        destruct (Nat.eqb_spec enum i') as [<- |Hne].
        * cbn [option_map]. eexists. split; [reflexivity|]. assert (ei = en) as -> by congruence.
          repeat (split; [assumption|]). unfold g.
          assert (index = length (kids 3 enum done)) as ->.
          { destruct (Hcm _ Hi') as [_ Hk]. destruct (Hk _ _ eq_refl) as [scope Hk'].
            rewrite Eevs, kids_app in Hk'. cbn [kids filter] in Hk'.
            change (kids 3 enum (EvEnumValue path full file enum index v :: rest))
              with (if owned 3 enum (EvEnumValue path full file enum index v)
                    then EvEnumValue path full file enum index v :: kids 3 enum rest else kids 3 enum rest) in Hk'.
            unfold owned in Hk' at 1. cbn [owner] in Hk'. rewrite !Nat.eqb_refl in Hk'. cbn [andb] in Hk'.
            assert (nth_error (kids 3 enum done ++ EvEnumValue path full file enum index v :: kids 3 enum rest)
                      (length (kids 3 enum done)) = Some (EvEnumValue path full file enum index v)) as Q.
            { rewrite nth_error_app2, Nat.sub_diag by lia. reflexivity. }
            unfold kids at 2 in Q. rewrite Hk' in Q. unfold g_values in Q. rewrite mapi_nth in Q.
            destruct (nth_error (ep_values e') (length (kids 3 enum done))); [|discriminate]. cbn in Q.
            inversion Q. reflexivity. }
          apply (values_ok_add X pb' (allow_alias e') enum (kids 3 enum done) en (EvEnumValue path full file enum _ v) pos found); auto.
          -- cbn [ev_value]. eapply enum_number_later; [exact La|exact Hnum].
          -- intros Hf. rewrite <- E. exact (Ha Hf).
        * exists ei. rewrite app_nil_r. split; [reflexivity|]. repeat (split; [assumption|]). exact F'.
      + eapply Cexts_keep; eauto. discriminate.
      + eapply Csvcs_keep; eauto. discriminate.
    - (* extension *)
      cbn [located] in Hloc. destruct Hloc as [raw [Hf [Hff _]]].
      destruct (Hraw _ _ Hf) as [g [Hg1 Hg2]].
      destruct (ext_quiet X _ _ _ _ _ _ _ _ _ Hg1 H) as [ex [k [d [Hlen [Hm [Hnum [Hty [Hd' ->]]]]]]]].
      clauses HR.
      cbn in He. destruct He as [He1 [He2 He3]].
      set (xi := ext_of g path full file parent x ex k d) in *.
      set (pb' := set_exts (p_exts pa ++ [xi]) (set_messages (upd ex (m_push_ext index) (p_messages pa)) pa)).
      assert (map m_id (upd ex (m_push_ext index) (p_messages pa)) = mids pa) as Em by (apply map_upd; reflexivity).
      assert (later (of_file (adv o done)) pa pb') as La.
      { constructor; auto using same_upto_refl. unfold mids at 2. cbn. rewrite Em. auto. }
      constructor; cbn [pb' set_exts set_messages p_names p_file_names p_files p_messages p_enums p_exts p_services]; rewrite ?adv_snoc; auto.
      + eapply Cfiles_keep; eauto using same_upto_refl. discriminate.
      + unfold mids. cbn [pb' set_exts set_messages p_messages]. rewrite Em. exact r7.
      + intros path' full' f' parent' i' m' Hi'.
        destruct (r8 _ _ _ _ _ _ Hi') as [mi [A [B [C [D [E F]]]]]].
        cbn [pb' set_exts set_messages p_messages p_names]. rewrite nth_upd, A, kids_snoc_head by reflexivity.
        assert (fields_ok X (p_names pa) pb' m' (kids 0 i' done) mi) as F'.
        { eapply fields_ok_later; [exact La|apply kids_file_lt; exact Hd|exact F]. }
        destruct (ex =? i')%nat; [|eauto 10]. cbn [option_map]. eexists. split; [reflexivity|].
        repeat (split; [assumption|]). apply fields_ok_ext. exact F'.
      + intros i' m1 Hm1. destruct (r9 _ _ Hm1) as [mi [A B]]. cbn [pb' set_exts set_messages p_messages p_exts].
        rewrite nth_upd, A, ext_ids_snoc. 2: { rewrite r13. pose proof (off_le_adv o done) as Q. unfold off_le in Q. lia. }
        change (x_extendee xi) with ex.
        destruct (ex =? i')%nat; cbn [option_map].
        * eexists. split; [reflexivity|]. cbn [m_push_ext m_exts]. rewrite B, Hlen, app_assoc. reflexivity.
        * exists mi. rewrite app_nil_r. auto.
      + eapply Cenums_keep; eauto.
      + rewrite app_length, r13. cbn. lia.
      + intros path' full' f' parent' i' fd' Hi'. cbn [pb' set_exts set_messages p_exts p_names].
        apply in_snoc in Hi'. destruct Hi' as [Hi'|Hi'].
        * destruct (r14 _ _ _ _ _ _ Hi') as [x0 [A B]]. exists x0. split.
          -- rewrite nth_app_l; [exact A|]. apply nth_error_Some. congruence.
          -- eapply xspec_later; [exact La|exact (file_lt _ _ _ Hd Hi')|exact B].
        * inversion Hi'; subst path' full' f' parent' i' fd'. exists xi. split; [rewrite <- Hlen; apply nth_app_new|].
          cbn [xspec]. exists g, ex, k, d. split; [exact Hg1|]. split; [exact Hm|].
          split; [eapply number_later; [exact La|exact Hnum]|]. auto.
      + eapply Csvcs_keep; eauto. discriminate.
  Qed.

  Lemma RI_init : RI [] p1.
  Proof.
    destruct HN as [A B C D E F]. destruct Hz as [L1 [L2 [L3 [L4 L5]]]].
    constructor; try reflexivity.
    - intros path i f Hi. destruct Hi.
    - intros path full f parent i m Hi. destruct (ni_msgs _ _ _ _ C _ _ _ _ _ _ Hi) as [Q _].
      eexists. split; [exact Q|]. unfold names_msg. cbn. repeat (split; [reflexivity|]). split.
      { rewrite map_map. reflexivity. }
      constructor; cbn; try constructor; auto.
      + discriminate.
      + intros [f0 [Q1 _]]. destruct j; discriminate.
      + intros k oi Hk. apply nth_map_some in Hk. destruct Hk as [e [_ <-]]. destruct e; reflexivity.
    - intros i m1 Hm1. exists m1. split; [exact Hm1|]. unfold ext_ids. rewrite E, L5, Nat.sub_diag. cbn. rewrite app_nil_r. reflexivity.
    - intros path full f parent i m Hi. destruct (ni_enums _ _ _ _ D _ _ _ _ _ _ Hi) as [Q _].
      eexists. split; [exact Q|]. unfold names_enum_inner. cbn. repeat (split; [reflexivity|]).
      constructor; cbn; try constructor; auto; constructor.
    - rewrite E. exact L5.
    - intros path full f parent i m [].
    - rewrite F. exact L4.
    - intros path full f i m [].
  Qed.

  Theorem resolve_phase p :
    fold_res (resolve_step X fuel) evs (V p1 []) = Ok (V p []) -> RI evs p.
  Proof.
    apply (quiet_fold (resolve_step X fuel) RI).
    - apply grows_resolve.
    - apply RI_init.
    - intros done e rest pa pb E. apply RI_step with (rest := rest). exact E.
  Qed.
End RI.
