(** Which conditions keep the steps of a build from reporting errors: the other
    direction of BuildQuiet. *)
From Coq Require Import Permutation Sorted.
From Verif Require Import Base BaseProofs Value Descr Proto Build VisitProofs EventProofs BuildFrame BuildNames BuildQuiet BuildResolve.

(** the first step that reports something *)
Lemma first_noisy {A} (g : A -> vst -> res vst) l : forall p v,
  fold_res g l (V p []) = Ok v -> v_errs v <> [] ->
  exists done e rest pa v1, l = done ++ e :: rest /\ fold_res g done (V p []) = Ok (V pa []) /\
    g e (V pa []) = Ok v1 /\ v_errs v1 <> [].
Proof.
  induction l as [|a l IH]; intros p v H N; cbn [fold_res] in H.
  - apply Ok_inj in H. subst. contradiction N. reflexivity.
  - apply rbind_ok in H. destruct H as [[pa es] [H1 H2]]. destruct es as [|er es].
    + destruct (IH _ _ H2 N) as (done & e & rest & pb & v1 & -> & F & G & Q).
      exists (a :: done), e, rest, pb, v1. split; [reflexivity|]. split; [cbn [fold_res]; rewrite H1; exact F|]. auto.
    + exists [], a, l, p, (V pa (er :: es)). repeat split; auto. discriminate.
Qed.
Lemma calm_v (v : vst) : v_errs v = [] -> v = V (v_pool v) [].
Proof. destruct v; cbn. intros ->. reflexivity. Qed.

(** ** Names *)

Lemma add_name_calm f n path k p v : add_name f n path k (V p []) = Ok v ->
  (forall d, assoc_s n (p_names p) = Some d -> is_package k && is_package (d_kind d) = true) ->
  v = V p [] \/ v = V (set_names ((n, Def f path k) :: p_names p) p) [].
Proof.
  unfold add_name. cbn [v_pool]. destruct (assoc_s n (p_names p)) as [d|] eqn:E; intros H C.
  - rewrite (C d eq_refl) in H. apply Ok_inj in H. auto.
  - apply Ok_inj in H. subst. right. reflexivity.
Qed.
Lemma add_pkgs_calm i path l : forall p v,
  fold_res (fun pre => add_name i pre path DPackage) l (V p []) = Ok v ->
  (forall n d, In n l -> assoc_s n (p_names p) = Some d -> d_kind d = DPackage) ->
  exists news, v = V (set_names (news ++ p_names p) p) [] /\ Forall (fun nd => d_kind (snd nd) = DPackage) news.
Proof.
  induction l as [|a l IH]; intros p v H C.
  - apply Ok_inj in H. subst. exists []. split; [destruct p; reflexivity|constructor].
  - cbn [fold_res] in H. apply rbind_ok in H. destruct H as [v1 [H1 H2]].
    apply add_name_calm in H1.
    2: { intros d Hd. rewrite (C a d (or_introl eq_refl) Hd). reflexivity. }
    destruct H1 as [-> | ->].
    + destruct (IH _ _ H2) as [news [-> F]]; [intros n d Hn; apply C; right; exact Hn|]. eauto.
    + destruct (IH _ _ H2) as [news [-> F]].
      { intros n d Hn. cbn [set_names p_names assoc_s]. destruct (bytes_eqb n a) eqn:B.
        - intros E. apply Some_inj in E. subst d. reflexivity.
        - intros E. apply (C n d); [right; exact Hn|exact E]. }
      exists (news ++ [(a, Def i path DPackage)]). split.
      { cbn. unfold set_names. cbn. rewrite <- app_assoc. reflexivity. }
      apply Forall_app. split; [exact F|]. repeat constructor.
Qed.
Lemma camel_calm f fs : forall i seen v,
  NoDup (map (fun x => to_lower_without_underscores (fp_name x)) fs) ->
  (forall x, In x fs -> ~ In (to_lower_without_underscores (fp_name x)) seen) ->
  check_camel f i seen fs v = Ok v.
Proof.
  induction fs as [|x fs IH]; intros i seen v N D; [reflexivity|]. cbn [check_camel].
  destruct (existsb (bytes_eqb (to_lower_without_underscores (fp_name x))) seen) eqn:E.
  - exfalso. apply existsb_exists in E. destruct E as [y [Hy E]]. apply bytes_eqb_eq in E. subst y.
    exact (D x (or_introl eq_refl) Hy).
  - cbn in N. inversion N as [|? ? N1 N2]; subst. apply IH; [exact N2|]. intros y Hy [Q|Q].
    + apply N1. rewrite Q. apply (in_map (fun x => to_lower_without_underscores (fp_name x))). exact Hy.
    + exact (D y (or_intror Hy) Q).
Qed.

(** ** Checks *)

Section X.
Context (X : externs).

Lemma fold_calm {A} (g : A -> vst -> res vst) l v : (forall a, In a l -> g a v = Ok v) -> fold_res g l v = Ok v.
Proof.
  induction l as [|a l IH]; intros H; [reflexivity|]. cbn [fold_res]. rewrite (H a (or_introl eq_refl)). cbn [rbind].
  apply IH. intros b Hb. apply H. right. exact Hb.
Qed.

Lemma field_number_calm m fd f p v : check_field_number m fd f (V p []) = Ok v ->
  number_spec (raws p) (mids p) m fd -> v = V p [].
Proof.
  intros H (id & fl & mp & A & B & C & L & R & E). unfold check_field_number in H. rewrite L in H. cbn [rbind v_pool] in H.
  apply rbind_ok in H. destruct H as [mi [Hm H]]. apply rbind_ok in H. destruct H as [fi [Hf H]].
  apply rbind_ok in H. destruct H as [mp' [Hp H]]. apply at_ok in Hm. apply at_ok in Hf.
  unfold mids in A. rewrite nth_error_map, Hm in A. apply Some_inj in A. subst id.
  unfold raws in B. rewrite nth_error_map, Hf in B. apply Some_inj in B. subst fl.
  rewrite C in Hp. apply Ok_inj in Hp. subst mp'.
  rewrite fold_calm in H; [|intros r Hr; rewrite (R r Hr); reflexivity]. cbn [rbind] in H. rewrite E in H.
  destruct (fp_extendee fd); apply Ok_inj in H; congruence.
Qed.
Lemma enum_number_calm en z f p v : check_enum_number en z f (V p []) = Ok v ->
  enum_number_spec (raws p) (eids p) en z -> v = V p [].
Proof.
  intros H (id & fl & ep & A & B & C & R). unfold check_enum_number in H. cbn [v_pool] in H.
  apply rbind_ok in H. destruct H as [mi [Hm H]]. apply rbind_ok in H. destruct H as [fi [Hf H]].
  apply rbind_ok in H. destruct H as [mp' [Hp H]]. apply at_ok in Hm. apply at_ok in Hf.
  unfold eids in A. rewrite nth_error_map, Hm in A. apply Some_inj in A. subst id.
  unfold raws in B. rewrite nth_error_map, Hf in B. apply Some_inj in B. subst fl.
  rewrite C in Hp. apply Ok_inj in Hp. subst mp'.
  rewrite fold_calm in H; [|intros r Hr; rewrite (R r Hr); reflexivity]. apply Ok_inj in H. congruence.
Qed.

Lemma ref_calm scope name f path tag r p o v fi n d : resolve_ref scope name f path tag r (V p []) = Ok (o, v) ->
  nth_error (p_files p) f = Some fi -> resolve_name (fi_trans fi) (p_names p) scope name r = RFound n d ->
  o = Some d /\ v = V p [].
Proof.
  unfold resolve_ref. intros H Hf R. apply rbind_ok in H. destruct H as [fi' [Hf' H]]. apply at_ok in Hf'. cbn [v_pool] in *.
  assert (fi' = fi) as -> by congruence. rewrite R in H. apply rbind_ok in H. destruct H as [x [_ H]]. inversion H; auto.
Qed.
Lemma find_message_calm scope name f path tag p o v fi i : find_message scope name f path tag (V p []) = Ok (o, v) ->
  nth_error (p_files p) f = Some fi -> message_spec (p_names p) (fi_trans fi) scope name i ->
  o = Some i /\ v = V p [].
Proof.
  intros H Hf (n & d & R & K). unfold find_message in H. apply rbind_ok in H. destruct H as [[o1 v1] [H1 H]].
  destruct (ref_calm _ _ _ _ _ _ _ _ _ _ _ _ H1 Hf R) as [-> ->]. rewrite K in H. inversion H; auto.
Qed.
Lemma type_calm ty name scope f path p o v fi k : resolve_type ty name scope f path (V p []) = Ok (o, v) ->
  nth_error (p_files p) f = Some fi -> type_spec (p_names p) (fi_trans fi) ty name scope k ->
  o = Some k /\ v = V p [].
Proof.
  intros H Hf T. unfold resolve_type in H. destruct name as [|c name].
  - cbn in T. destruct ty; try discriminate; apply Some_inj in T; subst k; inversion H; auto.
  - destruct T as (n & d & R & K). apply rbind_ok in H. destruct H as [[o1 v1] [H1 H]].
    destruct (ref_calm _ _ _ _ _ _ _ _ _ _ _ _ H1 Hf R) as [-> ->].
    destruct K as [[i [K ->]]|[e [K ->]]]; rewrite K in H; inversion H; auto.
Qed.
Lemma parse_default_calm k d f p x v r : parse_default X k d f (V p []) = Ok (x, v) ->
  default_spec X (p_enums p) k d r -> x = r /\ v = V p [].
Proof.
  unfold parse_default. intros H D. destruct d as [s|]; [|cbn in D; inversion H; subst; auto].
  destruct D as [y [-> D]].
  assert (forall o : option value, parse_simple X k s = Ok o -> parse_simple X k s = Ok (Some y) ->
    match o with Some x => Ok (Some x, V p []) | None => let! v1 := push_err [fst f] (at_spot (inside_spot f [7%Z]) (ErrDefault s)) (V p []) in Ok (None, v1) end = Ok (x, v) ->
    x = Some y /\ v = V p []) as Q.
  { intros o H1 H2 H3. rewrite H2 in H1. apply Ok_inj in H1. subst o. inversion H3; auto. }
  destruct k; try contradiction; try (apply rbind_ok in H; destruct H as [o [H1 H]]; exact (Q o H1 D H)).
  destruct D as (en & x0 & A & B & ->). apply rbind_ok in H. destruct H as [en' [He H]]. apply at_ok in He. cbn [v_pool] in *.
  assert (en' = en) as -> by congruence. rewrite B in H. inversion H; auto.
Qed.

(** ** Events *)

Lemma field_calm path full f message index fd p v g m k d :
  resolve_field X path full f message index fd (V p []) = Ok v ->
  nth_error (p_files p) f = Some g -> find_file_field (fi_raw g) path = Some fd ->
  nth_error (p_messages p) message = Some m ->
  number_spec (raws p) (mids p) message fd ->
  type_spec (p_names p) (fi_trans g) (fp_type fd) (fp_type_name fd) full k ->
  default_spec X (p_enums p) k (fp_default fd) d ->
  (forall z, fp_oneof fd = Some z -> (0 <= z < Z.of_nat (length (m_oneofs m)))%Z) ->
  bt_get (as_u32 (fp_number fd)) (m_numbers m) = None ->
  assoc_s (fp_name fd) (m_names m) = None ->
  assoc_s (json_of fd) (m_jsons m) = None ->
  v_errs v = [].
Proof.
  intros H Hg Hl Hm Hn Ht Hd Ho B1 B2 B3. unfold resolve_field in H.
  apply rbind_ok in H. destruct H as [m' [Hm' H]]. apply rbind_ok in H. destruct H as [v1 [H1 H]].
  apply assert_ok in H1. destruct H1 as [-> _].
  apply rbind_ok in H. destruct H as [fi [Hfi H]]. apply rbind_ok in H. destruct H as [v1 [H1 H]].
  apply (field_number_calm _ _ _ _ _ H1) in Hn. subst v1.
  apply rbind_ok in H. destruct H as [[ko v1] [H2 H]].
  destruct (type_calm _ _ _ _ _ _ _ _ _ _ H2 Hg Ht) as [-> ->].
  apply rbind_ok in H. destruct H as [json [Hj H]]. apply rbind_ok in H. destruct H as [[dv v1] [H3 H]].
  cbn [default_of] in H3. destruct (parse_default_calm _ _ _ _ _ _ _ H3 Hd) as [-> ->].
  apply rbind_ok in H. destruct H as [m2 [Hm2 H]]. apply at_ok in Hm2. cbn [v_pool] in Hm2. assert (m2 = m) as -> by congruence.
  assert (json = json_of fd) as ->.
  { unfold resolve_json in Hj. unfold json_of. destruct (fp_json fd); [apply Ok_inj in Hj; congruence|].
    cbn [v_pool] in Hj. apply rbind_ok in Hj. destruct Hj as [g' [Hg' Hj]]. apply at_ok in Hg'.
    assert (g' = g) as -> by congruence. rewrite Hl in Hj. cbn [need rbind] in Hj. apply Ok_inj in Hj. congruence. }
  apply rbind_ok in H. destruct H as [[oo v1] [H4 H]].
  assert (v_errs v1 = []) as E1.
  { destruct (fp_oneof fd) as [z|]; [|inversion H4; reflexivity].
    specialize (Ho z eq_refl). destruct ((z <? 0)%Z || (length (m_oneofs m) <=? Z.to_nat z)%nat) eqn:B.
    - exfalso. apply orb_true_iff in B. destruct B as [B|B]; [apply Z.ltb_lt in B|apply Nat.leb_le in B]; lia.
    - inversion H4; reflexivity. }
  rewrite B1, B2, B3 in H. cbn [rbind] in H. apply Ok_inj in H. subst v. exact E1.
Qed.
Lemma method_calm path full f service index m p v g i o :
  resolve_method path full f service index m (V p []) = Ok v ->
  nth_error (p_files p) f = Some g ->
  message_spec (p_names p) (fi_trans g) full (mp_input m) i ->
  message_spec (p_names p) (fi_trans g) full (mp_output m) o -> v_errs v = [].
Proof.
  intros H Hg Hi Ho. unfold resolve_method in H.
  apply rbind_ok in H. destruct H as [s [Hs H]]. apply rbind_ok in H. destruct H as [v1 [H1 H]].
  apply assert_ok in H1. destruct H1 as [-> _].
  apply rbind_ok in H. destruct H as [[i' v1] [H1 H]]. destruct (find_message_calm _ _ _ _ _ _ _ _ _ _ H1 Hg Hi) as [-> ->].
  apply rbind_ok in H. destruct H as [[o' v1] [H2 H]]. destruct (find_message_calm _ _ _ _ _ _ _ _ _ _ H2 Hg Ho) as [-> ->].
  apply Ok_inj in H. subst v. reflexivity.
Qed.
Lemma enum_value_calm path full f enum index x p v e :
  resolve_enum_value X path full f enum index x (V p []) = Ok v ->
  nth_error (p_enums p) enum = Some e ->
  enum_number_spec (raws p) (eids p) enum (snd x) ->
  (snd (x_search X (e_numbers e) (snd x)) = true -> e_alias e = true) ->
  assoc_s (fst x) (e_names e) = None -> v_errs v = [].
Proof.
  intros H He Hn Hs Ha. unfold resolve_enum_value in H.
  apply rbind_ok in H. destruct H as [v1 [H1 H]]. apply (enum_number_calm _ _ _ _ _ H1) in Hn. subst v1. cbn [v_pool] in H.
  apply rbind_ok in H. destruct H as [e' [He' H]]. apply at_ok in He'. assert (e' = e) as -> by congruence.
  destruct (x_search X (e_numbers e) (snd x)) as [ps found]. cbn [snd] in Hs.
  assert (found && negb (e_alias e) = false) as E.
  { destruct found; [rewrite Hs by reflexivity; reflexivity|reflexivity]. }
  rewrite E, Ha in H. cbn [rbind] in H. apply Ok_inj in H. subst v. reflexivity.
Qed.
Lemma ext_calm path full f parent index fd p v g e k d :
  resolve_ext X path full f parent index fd (V p []) = Ok v ->
  nth_error (p_files p) f = Some g ->
  message_spec (p_names p) (fi_trans g) full (the_extendee fd) e ->
  number_spec (raws p) (mids p) e fd ->
  type_spec (p_names p) (fi_trans g) (fp_type fd) (fp_type_name fd) full k ->
  default_spec X (p_enums p) k (fp_default fd) d -> v_errs v = [].
Proof.
  intros H Hg Hm Hn Ht Hd. unfold resolve_ext in H.
  apply rbind_ok in H. destruct H as [v1 [H1 H]]. apply assert_ok in H1. destruct H1 as [-> _].
  apply rbind_ok in H. destruct H as [[ext v1] [H1 H]]. fold (the_extendee fd) in H1.
  destruct (find_message_calm _ _ _ _ _ _ _ _ _ _ H1 Hg Hm) as [-> ->].
  apply rbind_ok in H. destruct H as [v1 [H2 H]]. apply rbind_ok in H2. destruct H2 as [mi [_ H2]].
  unfold on_message, on_pool in H2. cbn [v_pool v_errs] in H2.
  set (p1 := set_messages (upd e (m_push_ext index) (p_messages p)) p) in *.
  assert (mids p1 = mids p) as Em.
  { unfold mids, p1. cbn [set_messages p_messages]. apply map_upd. reflexivity. }
  apply field_number_calm in H2; [|rewrite Em; exact Hn]. subst v1.
  apply rbind_ok in H. destruct H as [fi [_ H]]. apply rbind_ok in H. destruct H as [[ko v1] [H2 H]].
  destruct (type_calm _ _ _ _ _ p1 _ _ g k H2 Hg Ht) as [-> ->].
  apply rbind_ok in H. destruct H as [json [_ H]]. apply rbind_ok in H. destruct H as [[dv v1] [H3 H]].
  cbn [default_of] in H3. destruct (parse_default_calm _ _ _ p1 _ _ _ H3 Hd) as [-> ->].
  apply Ok_inj in H. subst v. reflexivity.
Qed.

Lemma deps_calm fuel index : forall ds k trans p t v,
  resolve_deps fuel index k ds trans (V p []) = Ok (t, v) ->
  (forall d, In d ds -> assoc_s d (p_file_names p) <> None) -> v_errs v = [].
Proof.
  induction ds as [|d ds IH]; intros k trans p t v H C; cbn [resolve_deps] in H.
  - inversion H; reflexivity.
  - cbn [v_pool] in H. destruct (assoc_s d (p_file_names p)) as [di|] eqn:E; [|exfalso; exact (C d (or_introl eq_refl) E)].
    apply rbind_ok in H. destruct H as [fi [_ H]]. apply rbind_ok in H. destruct H as [t1 [_ H]].
    unfold on_pool in H. cbn [v_pool v_errs] in H. apply IH in H; [exact H|]. intros d' Hd. apply C. right. exact Hd.
Qed.
Lemma import_calm n z v : (0 <= z < Z.of_nat n)%Z -> check_import_index n z v = Ok v.
Proof.
  intros H. unfold check_import_index.
  assert ((0 <=? z)%Z && (Z.to_nat z <? n)%nat = true) as ->; [|reflexivity].
  apply andb_true_iff. split; [apply Z.leb_le|apply Nat.ltb_lt]; lia.
Qed.
Lemma file_calm fuel index f p v : resolve_file fuel index f (V p []) = Ok v ->
  (forall d, In d (fl_deps f) -> assoc_s d (p_file_names p) <> None) ->
  (forall z, In z (fl_public f) \/ In z (fl_weak f) -> (0 <= z < Z.of_nat (length (fl_deps f)))%Z) -> v_errs v = [].
Proof.
  intros H D I. unfold resolve_file in H. apply rbind_ok in H. destruct H as [[t v1] [H1 H]].
  apply deps_calm in H1; [|exact D].
  apply rbind_ok in H. destruct H as [fi [_ H]].
  rewrite fold_calm in H; [|intros z Hz; apply import_calm, I; left; exact Hz]. cbn [rbind] in H.
  rewrite fold_calm in H; [|intros z Hz; apply import_calm, I; right; exact Hz].
  apply Ok_inj in H. subst v. exact H1.
Qed.
End X.
