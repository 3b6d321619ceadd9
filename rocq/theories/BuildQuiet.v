(** What each call of the second phase of a build does when no error comes of
    it. *)
From Verif Require Import Base BaseProofs Value Descr Proto Build VisitProofs EventProofs BuildFrame BuildNames.

(** ** Errors only accumulate *)

Lemma grows_import n z v v' : check_import_index n z v = Ok v' -> grows v v'.
Proof.
  unfold check_import_index. destruct (_ && _); [|apply grows_push].
  intros H; apply Ok_inj in H; subst; apply grows_refl.
Qed.
Lemma grows_deps fuel index ds : forall k t v t' v',
  resolve_deps fuel index k ds t v = Ok (t', v') -> grows v v'.
Proof.
  induction ds as [|d ds IH]; intros k t v t' v' H; cbn [resolve_deps] in H.
  - inversion H; subst. apply grows_refl.
  - destruct (assoc_s d (p_file_names (v_pool v))).
    + apply rbind_ok in H. destruct H as [fi [_ H]]. apply rbind_ok in H. destruct H as [t1 [_ H]].
      eapply grows_trans; [|exact (IH _ _ _ _ _ H)]. apply grows_on_pool.
    + apply rbind_ok in H. destruct H as [v1 [H1 H]].
      eapply grows_trans; [exact (grows_push _ _ _ _ H1)|exact (IH _ _ _ _ _ H)].
Qed.
Lemma grows_field_number m fd f v v' : check_field_number m fd f v = Ok v' -> grows v v'.
Proof.
  unfold check_field_number. intros H.
  apply rbind_ok in H. destruct H as [v1 [H1 H]]. apply rbind_ok in H. destruct H as [mi [_ H]].
  apply rbind_ok in H. destruct H as [fi [_ H]]. apply rbind_ok in H. destruct H as [mp [_ H]].
  apply rbind_ok in H. destruct H as [v2 [H2 H]].
  assert (grows v v1) as G1.
  { destruct (legal_number (fp_number fd)); [apply Ok_inj in H1; subst; apply grows_refl|exact (grows_push _ _ _ _ H1)]. }
  assert (grows v1 v2) as G2.
  { eapply grows_fold; [|exact H2]. intros a x y Hx. cbn beta in Hx. destruct (in_range a (fp_number fd)).
    - exact (grows_push _ _ _ _ Hx).
    - apply Ok_inj in Hx; subst; apply grows_refl. }
  eapply grows_trans; [exact G1|]. eapply grows_trans; [exact G2|].
  destruct (fp_extendee fd), (existsb (fun r => in_range r (fp_number fd)) (dp_ext_ranges mp));
    try (apply Ok_inj in H; subst; apply grows_refl); exact (grows_push _ _ _ _ H).
Qed.
Lemma grows_enum_number en z f v v' : check_enum_number en z f v = Ok v' -> grows v v'.
Proof.
  unfold check_enum_number. intros H.
  apply rbind_ok in H. destruct H as [mi [_ H]].
  apply rbind_ok in H. destruct H as [fi [_ H]]. apply rbind_ok in H. destruct H as [mp [_ H]].
  eapply grows_fold; [|exact H]. intros a x y Hx. cbn beta in Hx. destruct (in_range_incl a z).
  - exact (grows_push _ _ _ _ Hx).
  - apply Ok_inj in Hx; subst; apply grows_refl.
Qed.
Lemma grows_ref scope name f path tag r v d v' : resolve_ref scope name f path tag r v = Ok (d, v') -> grows v v'.
Proof.
  unfold resolve_ref. intros H. apply rbind_ok in H. destruct H as [fi [_ H]].
  destruct (resolve_name _ _ _ _ _); apply rbind_ok in H; destruct H as [x [H1 H]]; inversion H; subst;
    try (exact (grows_push _ _ _ _ H1)). apply grows_refl.
Qed.
Lemma grows_find_message scope name f path tag v d v' : find_message scope name f path tag v = Ok (d, v') -> grows v v'.
Proof.
  unfold find_message. intros H. apply rbind_ok in H. destruct H as [[o v1] [H1 H]].
  apply grows_ref in H1. destruct o as [dd|].
  - destruct (d_kind dd); try discriminate. inversion H; subst. exact H1.
  - inversion H; subst. exact H1.
Qed.
Lemma grows_type ty name scope f path v d v' : resolve_type ty name scope f path v = Ok (d, v') -> grows v v'.
Proof.
  unfold resolve_type. intros H. destruct name as [|c name].
  - destruct ty; try (inversion H; subst; apply grows_refl);
      apply rbind_ok in H; destruct H as [x [H1 H]]; inversion H; subst; exact (grows_push _ _ _ _ H1).
  - apply rbind_ok in H. destruct H as [[o v1] [H1 H]]. apply grows_ref in H1. destruct o as [dd|].
    + destruct (d_kind dd); try discriminate; inversion H; subst; exact H1.
    + inversion H; subst. exact H1.
Qed.
Section X.
Context (X : externs).
Lemma grows_parse_default k d f v x v' : parse_default X k d f v = Ok (x, v') -> grows v v'.
Proof.
  unfold parse_default. intros H. destruct d as [s|]; [|inversion H; subst; apply grows_refl].
  assert (forall r : option value, (let! v1 := push_err [fst f] (at_spot (inside_spot f [7%Z]) (ErrDefault s)) v in Ok (None, v1)) = Ok (r, v') -> grows v v') as P.
  { intros r Hr. apply rbind_ok in Hr. destruct Hr as [x1 [H1 H2]]. inversion H2; subst. exact (grows_push _ _ _ _ H1). }
  assert (forall (o : option value) (r : option value), (match o with Some x => Ok (Some x, v) | None => let! v1 := push_err [fst f] (at_spot (inside_spot f [7%Z]) (ErrDefault s)) v in Ok (None, v1) end) = Ok (r, v') -> grows v v') as Q.
  { intros [y|] r Hr; [inversion Hr; subst; apply grows_refl|exact (P _ Hr)]. }
  destruct k; try (exact (P _ H)); try (apply rbind_ok in H; destruct H as [o [_ H]]; exact (Q _ _ H)).
  apply rbind_ok in H. destruct H as [en [_ H]].
  destruct (find _ (e_values en)); [inversion H; subst; apply grows_refl|exact (P _ H)].
Qed.
Lemma grows_default k fd f v x v' : default_of X k fd f v = Ok (x, v') -> grows v v'.
Proof. unfold default_of. destruct k; [apply grows_parse_default|]. intros H. inversion H; subst. apply grows_refl. Qed.

Lemma grows_opt_push {A} (o : option A) l e v v' :
  match o with Some _ => push_err l e v | None => Ok v end = Ok v' -> grows v v'.
Proof. destruct o; [apply grows_push|]. intros H; apply Ok_inj in H; subst; apply grows_refl. Qed.

Lemma grows_resolve fuel e v v' : resolve_step X fuel e v = Ok v' -> grows v v'.
Proof.
  intros H. destruct e; cbn [resolve_step] in H; try (apply Ok_inj in H; subst; apply grows_refl).
  - unfold resolve_file in H. apply rbind_ok in H. destruct H as [[t v1] [H1 H]].
    apply rbind_ok in H. destruct H as [fi [_ H]]. apply rbind_ok in H. destruct H as [v2 [H2 H]].
    eapply grows_trans; [exact (grows_deps _ _ _ _ _ _ _ _ H1)|].
    eapply grows_trans; [|eapply grows_fold; [|exact H]; intros; eapply grows_import; eassumption].
    eapply grows_trans; [|eapply grows_fold; [|exact H2]; intros; eapply grows_import; eassumption].
    apply grows_on_pool.
  - unfold resolve_field in H. apply rbind_ok in H. destruct H as [m [_ H]].
    apply rbind_ok in H. destruct H as [v1 [H1 H]]. apply assert_ok in H1. destruct H1 as [-> _].
    apply rbind_ok in H. destruct H as [fi [_ H]]. apply rbind_ok in H. destruct H as [v1 [H1 H]].
    apply rbind_ok in H. destruct H as [[k v2] [H2 H]]. apply rbind_ok in H. destruct H as [j [_ H]].
    apply rbind_ok in H. destruct H as [[d v3] [H3 H]]. apply rbind_ok in H. destruct H as [m2 [_ H]].
    apply rbind_ok in H. destruct H as [[oo v4] [H4 H]].
    apply rbind_ok in H. destruct H as [v5 [H5 H]]. apply rbind_ok in H. destruct H as [v6 [H6 H]].
    eapply grows_trans; [exact (grows_field_number _ _ _ _ _ H1)|].
    eapply grows_trans; [exact (grows_type _ _ _ _ _ _ _ _ H2)|].
    eapply grows_trans; [exact (grows_default _ _ _ _ _ _ H3)|].
    eapply grows_trans; [|exact (grows_opt_push _ _ _ _ _ H)].
    eapply grows_trans; [|exact (grows_opt_push _ _ _ _ _ H6)].
    eapply grows_trans; [|exact (grows_opt_push _ _ _ _ _ H5)].
    eapply grows_trans; [|apply grows_on_pool].
    destruct (fp_oneof f) as [z|]; [|inversion H4; subst; apply grows_refl].
    destruct (_ || _); [|inversion H4; subst; apply grows_on_pool].
    apply rbind_ok in H4. destruct H4 as [v7 [H7 H4]]. inversion H4; subst. exact (grows_push _ _ _ _ H7).
  - unfold resolve_service in H. apply rbind_ok in H. destruct H as [v1 [H1 H]].
    apply assert_ok in H1. destruct H1 as [-> _]. apply Ok_inj in H. subst. apply grows_on_pool.
  - unfold resolve_method in H. apply rbind_ok in H. destruct H as [s [_ H]].
    apply rbind_ok in H. destruct H as [v1 [H1 H]]. apply assert_ok in H1. destruct H1 as [-> _].
    apply rbind_ok in H. destruct H as [[i v2] [H2 H]]. apply rbind_ok in H. destruct H as [[o v3] [H3 H]].
    apply Ok_inj in H. subst.
    eapply grows_trans; [exact (grows_find_message _ _ _ _ _ _ _ _ H2)|].
    eapply grows_trans; [exact (grows_find_message _ _ _ _ _ _ _ _ H3)|]. apply grows_on_pool.
  - unfold resolve_enum_value in H. apply rbind_ok in H. destruct H as [v1 [H1 H]].
    apply rbind_ok in H. destruct H as [en [_ H]]. destruct (x_search X _ _) as [pos found].
    apply rbind_ok in H. destruct H as [v2 [H2 H]].
    eapply grows_trans; [exact (grows_enum_number _ _ _ _ _ H1)|].
    eapply grows_trans; [|exact (grows_opt_push _ _ _ _ _ H)].
    eapply grows_trans; [|apply grows_on_pool].
    destruct (_ && _); [exact (grows_push _ _ _ _ H2)|apply Ok_inj in H2; subst; apply grows_refl].
  - unfold resolve_ext in H. apply rbind_ok in H. destruct H as [v1 [H1 H]].
    apply assert_ok in H1. destruct H1 as [-> _].
    apply rbind_ok in H. destruct H as [[e v2] [H2 H]]. apply rbind_ok in H. destruct H as [v3 [H3 H]].
    apply rbind_ok in H. destruct H as [fi [_ H]]. apply rbind_ok in H. destruct H as [[k v4] [H4 H]].
    apply rbind_ok in H. destruct H as [j [_ H]]. apply rbind_ok in H. destruct H as [[d v5] [H5 H]].
    apply Ok_inj in H. subst.
    eapply grows_trans; [exact (grows_find_message _ _ _ _ _ _ _ _ H2)|].
    eapply grows_trans; [|eapply grows_trans; [exact (grows_type _ _ _ _ _ _ _ _ H4)|]].
    2: { eapply grows_trans; [exact (grows_default _ _ _ _ _ _ H5)|]. apply grows_on_pool. }
    destruct e as [e|]; [|apply Ok_inj in H3; subst; apply grows_refl].
    apply rbind_ok in H3. destruct H3 as [mi [_ H3]].
    eapply grows_trans; [|exact (grows_field_number _ _ _ _ _ H3)]. apply grows_on_pool.
Qed.

(** ** What holds after a call without errors *)

Definition scalar_kind (ty : ptype) : option kind :=
  match ty with
  | TDouble => Some KDouble | TFloat => Some KFloat
  | TInt64 => Some KInt64 | TUint64 => Some KUint64
  | TInt32 => Some KInt32 | TFixed64 => Some KFixed64
  | TFixed32 => Some KFixed32 | TBool => Some KBool
  | TString => Some KString | TBytes => Some KBytes
  | TUint32 => Some KUint32 | TSfixed32 => Some KSfixed32
  | TSfixed64 => Some KSfixed64 | TSint32 => Some KSint32
  | TSint64 => Some KSint64
  | TGroup | TMessage | TEnum => None
  end.
(** the type of a field, from the names visible to it *)
Definition type_spec (names : list (str * def)) (trans : list nat) (ty : ptype) (tname scope : str)
    (k : kind) : Prop :=
  match tname with
  | [] => scalar_kind ty = Some k
  | _ => exists n d, resolve_name trans names scope tname FFieldType = RFound n d /\
           ((exists i, d_kind d = DMessage i /\ k = match ty with TGroup => KGroup i | _ => KMessage i end) \/
            (exists e, d_kind d = DEnum e /\ k = KEnum e))
  end.
Definition default_spec (enums : list enum_inner) (k : kind) (d : option str) (r : option value) : Prop :=
  match d with
  | None => r = None
  | Some s =>
      exists v, r = Some v /\
        match k with
        | KEnum e => exists en x, nth_error enums e = Some en /\
            find (fun x => bytes_eqb (id_name (ev_id x)) s) (e_values en) = Some x /\ v = VEnum (ev_number x)
        | KMessage _ | KGroup _ => False
        | _ => parse_simple X k s = Ok (Some v)
        end
  end.
(** the number of a field or extension of a message *)
Definition number_spec (raws : list file) (ids : list ident) (message : nat) (fd : fproto) : Prop :=
  exists id f mp, nth_error ids message = Some id /\ nth_error raws (id_file id) = Some f /\
    find_message_proto f (id_path id) = Some mp /\
    legal_number (fp_number fd) = true /\
    (forall r, In r (dp_reserved mp) -> in_range r (fp_number fd) = false) /\
    existsb (fun r => in_range r (fp_number fd)) (dp_ext_ranges mp)
    = match fp_extendee fd with Some _ => true | None => false end.
Definition message_spec (names : list (str * def)) (trans : list nat) (scope name : str) (i : nat) : Prop :=
  exists n d, resolve_name trans names scope name FMessage = RFound n d /\ d_kind d = DMessage i.
Definition json_of (fd : fproto) : str :=
  match fp_json fd with Some j => j | None => to_json_name (fp_name fd) end.

Definition raws (p : pool) : list file := map fi_raw (p_files p).
Definition mids (p : pool) : list ident := map m_id (p_messages p).

Lemma quiet_v (v : vst) p : v_pool v = p -> v_errs v = [] -> v = V p [].
Proof. destruct v; cbn; intros -> ->; reflexivity. Qed.
Lemma nth_map_some {A B} (g : A -> B) l i b : nth_error (map g l) i = Some b <-> exists a, nth_error l i = Some a /\ g a = b.
Proof.
  rewrite nth_error_map. destruct (nth_error l i) as [a|]; cbn; split.
  - intros H; apply Some_inj in H. exists a. auto.
  - intros [a' [H <-]]. apply Some_inj in H. subst. reflexivity.
  - discriminate.
  - intros [a' [H _]]. discriminate.
Qed.

Lemma quiet_fold_pred {A} (g : A -> vst -> res vst) (Q : A -> Prop) l p :
  (forall a v, g a (V p []) = Ok v -> (v = V p [] /\ Q a) \/ v_errs v <> []) ->
  (forall a v v', g a v = Ok v' -> grows v v') ->
  forall v, fold_res g l (V p []) = Ok v -> (v = V p [] /\ Forall Q l) \/ v_errs v <> [].
Proof.
  intros H G. induction l as [|a l IH]; intros v E; cbn in E.
  - apply Ok_inj in E. subst. left. split; [reflexivity|constructor].
  - apply rbind_ok in E. destruct E as [v1 [E1 E2]].
    destruct (H _ _ E1) as [[-> Ha]|Hn].
    + destruct (IH _ E2) as [[-> Hf]|Hn]; [left|right; exact Hn]. split; [reflexivity|constructor; assumption].
    + right. intros Q1. apply Hn. exact (grows_quiet _ _ (grows_fold g l G _ _ E2) Q1).
Qed.

Lemma noisy_push l e v v' : push_err l e v = Ok v' -> v_errs v' <> [].
Proof. apply push_not_quiet. Qed.

Lemma field_number_quiet m fd f p v : check_field_number m fd f (V p []) = Ok v ->
  (v = V p [] /\ number_spec (raws p) (mids p) m fd) \/ v_errs v <> [].
Proof.
  intros H. destruct (v_errs v) eqn:Ev; [left|right; discriminate].
  pose proof (check_field_number_pool _ _ _ _ _ H) as Hp. cbn [v_pool] in Hp.
  split; [apply quiet_v; assumption|].
  unfold check_field_number in H.
  apply rbind_ok in H. destruct H as [v1 [H1 H]]. apply rbind_ok in H. destruct H as [mi [Hm H]].
  apply rbind_ok in H. destruct H as [fi [Hf H]]. apply rbind_ok in H. destruct H as [mp [Hmp H]].
  apply rbind_ok in H. destruct H as [v2 [H2 H]].
  assert (v_errs v2 = [] /\ existsb (fun r => in_range r (fp_number fd)) (dp_ext_ranges mp)
    = match fp_extendee fd with Some _ => true | None => false end) as [E2 X2].
  { destruct (fp_extendee fd), (existsb (fun r => in_range r (fp_number fd)) (dp_ext_ranges mp));
      try (apply Ok_inj in H; subst; auto); exfalso; exact (noisy_push _ _ _ _ H Ev). }
  assert (v_errs v1 = []) as E1.
  { refine (grows_quiet v1 v2 _ E2). eapply grows_fold; [|exact H2]. intros a x y Hx. cbn beta in Hx.
    destruct (in_range a (fp_number fd)); [exact (grows_push _ _ _ _ Hx)|apply Ok_inj in Hx; subst; apply grows_refl]. }
  assert (v1 = V p [] /\ legal_number (fp_number fd) = true) as [-> L].
  { destruct (legal_number (fp_number fd)); [apply Ok_inj in H1; subst; auto|].
    exfalso. exact (noisy_push _ _ _ _ H1 E1). }
  apply at_ok in Hm. apply at_ok in Hf. cbn [v_pool] in *.
  apply (quiet_fold_pred _ (fun r => in_range r (fp_number fd) = false)) in H2.
  - destruct H2 as [[_ R]|N]; [|contradiction].
    exists (m_id mi), (fi_raw fi), mp. unfold raws, mids. rewrite !nth_error_map, Hm. cbn.
    rewrite Hf. cbn. split; [reflexivity|]. split; [reflexivity|].
    split; [destruct (find_message_proto _ _); [apply Ok_inj in Hmp; subst; reflexivity|discriminate]|].
    split; [exact L|]. split; [rewrite Forall_forall in R; exact R|exact X2].
  - intros a x Hx. cbn beta in Hx. destruct (in_range a (fp_number fd)); [right; exact (noisy_push _ _ _ _ Hx)|].
    apply Ok_inj in Hx; subst. left. auto.
  - intros a x y Hx. cbn beta in Hx. destruct (in_range a (fp_number fd)); [exact (grows_push _ _ _ _ Hx)|apply Ok_inj in Hx; subst; apply grows_refl].
Qed.

Definition enum_number_spec (raws : list file) (ids : list ident) (enum : nat) (z : Z) : Prop :=
  exists id f ep, nth_error ids enum = Some id /\ nth_error raws (id_file id) = Some f /\
    find_enum_proto f (id_path id) = Some ep /\
    (forall r, In r (ep_reserved ep) -> in_range_incl r z = false).
Definition eids (p : pool) : list ident := map e_id (p_enums p).
Lemma enum_number_quiet en z f p v : check_enum_number en z f (V p []) = Ok v ->
  (v = V p [] /\ enum_number_spec (raws p) (eids p) en z) \/ v_errs v <> [].
Proof.
  intros H. unfold check_enum_number in H.
  apply rbind_ok in H. destruct H as [mi [Hm H]].
  apply rbind_ok in H. destruct H as [fi [Hf H]]. apply rbind_ok in H. destruct H as [mp [Hmp H]].
  apply at_ok in Hm. apply at_ok in Hf. cbn [v_pool] in *.
  apply (quiet_fold_pred _ (fun r => in_range_incl r z = false)) in H.
  - destruct H as [[-> R]|N]; [left|right; exact N]. split; [reflexivity|].
    exists (e_id mi), (fi_raw fi), mp. unfold raws, eids. rewrite !nth_error_map, Hm. cbn.
    rewrite Hf. cbn. split; [reflexivity|]. split; [reflexivity|].
    split; [destruct (find_enum_proto _ _); [apply Ok_inj in Hmp; subst; reflexivity|discriminate]|].
    rewrite Forall_forall in R; exact R.
  - intros a x Hx. cbn beta in Hx. destruct (in_range_incl a z); [right; exact (noisy_push _ _ _ _ Hx)|].
    apply Ok_inj in Hx; subst. left. auto.
  - intros a x y Hx. cbn beta in Hx. destruct (in_range_incl a z); [exact (grows_push _ _ _ _ Hx)|apply Ok_inj in Hx; subst; apply grows_refl].
Qed.

Lemma ref_quiet scope name f path tag r p d v : resolve_ref scope name f path tag r (V p []) = Ok (d, v) ->
  (v = V p [] /\ exists fi n d', nth_error (p_files p) f = Some fi /\ d = Some d' /\
     resolve_name (fi_trans fi) (p_names p) scope name r = RFound n d') \/ v_errs v <> [].
Proof.
  unfold resolve_ref. intros H. apply rbind_ok in H. destruct H as [fi [Hf H]]. apply at_ok in Hf. cbn [v_pool] in *.
  destruct (resolve_name _ _ _ _ _) as [n d'|n d'|n x|n x|] eqn:R; apply rbind_ok in H; destruct H as [x' [H1 H]];
    inversion H; subst; try (right; exact (noisy_push _ _ _ _ H1)).
  left. split; [reflexivity|]. exists fi, n, d'. auto.
Qed.
Lemma find_message_quiet scope name f path tag p i v : find_message scope name f path tag (V p []) = Ok (i, v) ->
  (v = V p [] /\ exists fi j, nth_error (p_files p) f = Some fi /\ i = Some j /\
     message_spec (p_names p) (fi_trans fi) scope name j) \/ v_errs v <> [].
Proof.
  unfold find_message. intros H. apply rbind_ok in H. destruct H as [[o v1] [H1 H]].
  apply ref_quiet in H1. destruct H1 as [[-> [fi [n [d [Hf [-> R]]]]]]|N].
  - destruct (d_kind d) eqn:K; try discriminate. inversion H; subst. left. split; [reflexivity|].
    exists fi, i0. split; [exact Hf|]. split; [reflexivity|]. exists n, d. auto.
  - right. destruct o as [dd|]; [destruct (d_kind dd); try discriminate|]; inversion H; subst; exact N.
Qed.
Lemma type_quiet ty name scope f path p k v fi : nth_error (p_files p) f = Some fi ->
  resolve_type ty name scope f path (V p []) = Ok (k, v) ->
  (v = V p [] /\ exists k', k = Some k' /\ type_spec (p_names p) (fi_trans fi) ty name scope k') \/ v_errs v <> [].
Proof.
  intros Hf H. unfold resolve_type in H. destruct name as [|c name].
  - destruct ty; try (inversion H; subst; left; split; [reflexivity|eexists; split; reflexivity]);
      apply rbind_ok in H; destruct H as [x [H1 H]]; inversion H; subst; right; exact (noisy_push _ _ _ _ H1).
  - apply rbind_ok in H. destruct H as [[o v1] [H1 H]]. apply ref_quiet in H1.
    destruct H1 as [[-> [fi' [n [d [Hf' [-> R]]]]]]|N].
    + assert (fi' = fi) as -> by congruence.
      destruct (d_kind d) eqn:K; try discriminate; inversion H; subst; left; (split; [reflexivity|]);
        eexists; (split; [reflexivity|]); exists n, d; (split; [exact R|]); [left|right]; eexists; (split; [exact K|reflexivity]).
    + right. destruct o as [dd|]; [destruct (d_kind dd); try discriminate|]; inversion H; subst; exact N.
Qed.
Lemma parse_default_quiet k d f p x v : parse_default X k d f (V p []) = Ok (x, v) ->
  (v = V p [] /\ default_spec (p_enums p) k d x) \/ v_errs v <> [].
Proof.
  unfold parse_default. intros H. destruct d as [s|]; [|inversion H; subst; left; split; reflexivity].
  assert (forall r : option value, (let! v1 := push_err [fst f] (at_spot (inside_spot f [7%Z]) (ErrDefault s)) (V p []) in Ok (None, v1)) = Ok (r, v) -> v_errs v <> []) as P.
  { intros r Hr. apply rbind_ok in Hr. destruct Hr as [x1 [H1 H2]]. inversion H2; subst. exact (noisy_push _ _ _ _ H1). }
  assert (forall (o : option value), parse_simple X k s = Ok o -> match k with KEnum _ | KMessage _ | KGroup _ => False | _ => True end ->
    (match o with Some x => Ok (Some x, V p []) | None => let! v1 := push_err [fst f] (at_spot (inside_spot f [7%Z]) (ErrDefault s)) (V p []) in Ok (None, v1) end) = Ok (x, v) ->
    (v = V p [] /\ default_spec (p_enums p) k (Some s) x) \/ v_errs v <> []) as Q.
  { intros [y|] Hs Hk Hr; [|right; exact (P _ Hr)]. inversion Hr; subst. left. split; [reflexivity|].
    cbn [default_spec]. exists y. split; [reflexivity|]. destruct k; try contradiction; exact Hs. }
  destruct k; try (right; exact (P _ H));
    try (apply rbind_ok in H; destruct H as [o [Hs H]]; exact (Q _ Hs I H)).
  apply rbind_ok in H. destruct H as [en [He H]]. apply at_ok in He. cbn [v_pool] in *.
  destruct (find _ (e_values en)) as [y|] eqn:Fy; [|right; exact (P _ H)]. inversion H; subst.
  left. split; [reflexivity|]. cbn. eexists. split; [reflexivity|]. exists en, y. auto.
Qed.

(** *** Fields *)

Definition field_of (fi : file_inner) path full f (fd : fproto) (k : kind) (d : option value) : field_inner :=
  let c := fp_label fd in
  FieldI (mk_id f path full (fp_name fd)) (as_u32 (fp_number fd)) (json_of fd) k
         (option_map Z.to_nat (fp_oneof fd))
         (packed_of c (Some k) (fi_syntax fi) fd) (presence_of c (Some k) (fi_syntax fi) fd) c d.
Definition add_field (fld : field_inner) (name : str) (oneof : option nat) (index : nat) (m : message_inner) : message_inner :=
  m_push_field fld name index
    (match oneof with Some z => m_push_oneof_field z index m | None => m end).

Lemma upd_upd {A} i (g h : A -> A) l : upd i g (upd i h l) = upd i (fun a => g (h a)) l.
Proof. revert i. induction l as [|a l IH]; intros [|i]; cbn; f_equal; auto. Qed.

Lemma field_quiet path full f message index fd p p' g fraw :
  nth_error (p_files p) f = Some g -> fi_raw g = fraw -> find_file_field fraw path = Some fd ->
  resolve_field X path full f message index fd (V p []) = Ok (V p' []) ->
  exists m k d,
    nth_error (p_messages p) message = Some m /\ length (m_fields m) = index /\
    number_spec (raws p) (mids p) message fd /\
    type_spec (p_names p) (fi_trans g) (fp_type fd) (fp_type_name fd) full k /\
    default_spec (p_enums p) k (fp_default fd) d /\
    match fp_oneof fd with Some z => (0 <= z)%Z /\ (Z.to_nat z < length (m_oneofs m))%nat | None => True end /\
    bt_get (as_u32 (fp_number fd)) (m_numbers m) = None /\
    assoc_s (fp_name fd) (m_names m) = None /\
    assoc_s (json_of fd) (m_jsons m) = None /\
    p' = set_messages (upd message (add_field (field_of g path full f fd k d) (fp_name fd)
                                     (option_map Z.to_nat (fp_oneof fd)) index) (p_messages p)) p.
Proof.
  intros Hg Hraw Hloc H. unfold resolve_field in H. apply rbind_ok in H. destruct H as [m [Hm H]].
  apply rbind_ok in H. destruct H as [v1 [H1 H]]. apply assert_ok in H1. destruct H1 as [-> Hl].
  apply rbind_ok in H. destruct H as [fi [Hfi H]]. apply rbind_ok in H. destruct H as [v1 [H1 H]].
  apply rbind_ok in H. destruct H as [[k v2] [H2 H]]. apply rbind_ok in H. destruct H as [j [Hj H]].
  apply rbind_ok in H. destruct H as [[d v3] [H3 H]]. apply rbind_ok in H. destruct H as [m2 [Hm2 H]].
  apply rbind_ok in H. destruct H as [[oo v4] [H4 H]].
  apply rbind_ok in H. destruct H as [v5 [H5 H]]. apply rbind_ok in H. destruct H as [v6 [H6 H]].
  apply at_ok in Hm. apply at_ok in Hfi. cbn [v_pool] in *. assert (fi = g) as -> by congruence. clear Hfi.
  assert (v_errs v6 = []) as E6 by exact (grows_quiet _ _ (grows_opt_push _ _ _ _ _ H) eq_refl).
  assert (v_errs v5 = []) as E5 by exact (grows_quiet _ _ (grows_opt_push _ _ _ _ _ H6) E6).
  assert (v_errs v4 = []) as E4 by exact (grows_quiet _ _ (grows_opt_push _ _ _ _ _ H5) E5).
  assert (v_errs v3 = []) as E3.
  { destruct (fp_oneof fd) as [z|]; [|inversion H4; subst; exact E4].
    destruct (_ || _); [|inversion H4; subst; exact E4].
    apply rbind_ok in H4. destruct H4 as [v7 [H7 H4]]. inversion H4; subst. exfalso. exact (noisy_push _ _ _ _ H7 E4). }
  assert (v_errs v2 = []) as E2 by exact (grows_quiet _ _ (grows_default _ _ _ _ _ _ H3) E3).
  assert (v_errs v1 = []) as E1 by exact (grows_quiet _ _ (grows_type _ _ _ _ _ _ _ _ H2) E2).
  apply field_number_quiet in H1. destruct H1 as [[-> Hnum]|N]; [|contradiction].
  apply (type_quiet _ _ _ _ _ _ _ _ _ Hg) in H2. destruct H2 as [[-> [k' [-> Hty]]]|N]; [|contradiction].
  cbn [default_of] in H3. apply parse_default_quiet in H3. destruct H3 as [[-> Hd]|N]; [|contradiction].
  cbn [v_pool] in *. apply at_ok in Hm2. assert (m2 = m) as -> by congruence.
  assert (j = json_of fd) as ->.
  { unfold resolve_json in Hj. unfold json_of. destruct (fp_json fd); [apply Ok_inj in Hj; congruence|].
    apply rbind_ok in Hj. destruct Hj as [fi [Q1 Hj]]. apply at_ok in Q1. cbn [v_pool] in Q1.
    assert (fi = g) as -> by congruence. rewrite Hraw, Hloc in Hj. cbn in Hj. apply Ok_inj in Hj. congruence. }
  exists m, k', d. split; [exact Hm|]. split; [apply Nat.eqb_eq; exact Hl|]. split; [exact Hnum|].
  split; [exact Hty|]. split; [exact Hd|].
  assert (match fp_oneof fd with Some z => (0 <= z)%Z /\ (Z.to_nat z < length (m_oneofs m))%nat | None => True end /\
          oo = option_map Z.to_nat (fp_oneof fd) /\
          on_message message (m_push_field (field_of g path full f fd k' d) (fp_name fd) index) v4 =
          V (set_messages (upd message (add_field (field_of g path full f fd k' d) (fp_name fd)
                                     (option_map Z.to_nat (fp_oneof fd)) index) (p_messages p)) p) []) as [Ho [-> Hv]].
  { unfold add_field. destruct (fp_oneof fd) as [z|]; [|inversion H4; subst; split; [exact I|split; reflexivity]].
    destruct ((z <? 0)%Z || (length (m_oneofs m) <=? Z.to_nat z)%nat) eqn:B.
    - apply rbind_ok in H4. destruct H4 as [v7 [H7 H4]]. inversion H4; subst. exfalso. exact (noisy_push _ _ _ _ H7 E4).
    - apply orb_false_iff in B. destruct B as [B1 B2]. apply Z.ltb_ge in B1. apply Nat.leb_gt in B2.
      inversion H4; subst. split; [split; assumption|]. split; [reflexivity|].
      unfold on_message, on_pool, set_messages. cbn. rewrite upd_upd. reflexivity. }
  split; [exact Ho|].
  change (match bt_get (as_u32 (fp_number fd)) (m_numbers m) with
          | Some _ => push_err [f; f] (at_spot (f, path ++ [3%Z]) ErrDupNumber) (on_message message (m_push_field (field_of g path full f fd k' d) (fp_name fd) index) v4)
          | None => Ok (on_message message (m_push_field (field_of g path full f fd k' d) (fp_name fd) index) v4) end = Ok v5) in H5.
  rewrite Hv in H5.
  destruct (bt_get (as_u32 (fp_number fd)) (m_numbers m)); [exfalso; exact (noisy_push _ _ _ _ H5 E5)|].
  apply Ok_inj in H5. subst v5.
  destruct (assoc_s (fp_name fd) (m_names m)); [exfalso; exact (noisy_push _ _ _ _ H6 E6)|].
  apply Ok_inj in H6. subst v6.
  destruct (assoc_s (json_of fd) (m_jsons m)); [exfalso; exact (noisy_push _ _ _ _ H eq_refl)|].
  inversion H. auto.
Qed.

(** *** Methods, enum values, extensions *)

Lemma method_quiet path full f service index m p p' g :
  nth_error (p_files p) f = Some g ->
  resolve_method path full f service index m (V p []) = Ok (V p' []) ->
  exists s i o, nth_error (p_services p) service = Some s /\ length (s_methods s) = index /\
    message_spec (p_names p) (fi_trans g) full (mp_input m) i /\
    message_spec (p_names p) (fi_trans g) full (mp_output m) o /\
    p' = set_services (upd service (fun s => ServiceI (s_id s) (s_methods s ++ [MethodI (mk_id f path full (mp_name m)) i o]))
           (p_services p)) p.
Proof.
  intros Hg H. unfold resolve_method in H. apply rbind_ok in H. destruct H as [s [Hs H]].
  apply rbind_ok in H. destruct H as [v1 [H1 H]]. apply assert_ok in H1. destruct H1 as [-> Hl].
  apply rbind_ok in H. destruct H as [[i v2] [H2 H]]. apply rbind_ok in H. destruct H as [[o v3] [H3 H]].
  apply Ok_inj in H. assert (v_errs v3 = []) as E3 by (apply (f_equal v_errs) in H; exact H).
  assert (v_errs v2 = []) as E2 by exact (grows_quiet _ _ (grows_find_message _ _ _ _ _ _ _ _ H3) E3).
  apply find_message_quiet in H2. destruct H2 as [[-> [fi [i' [Q1 [-> M1]]]]]|N]; [|contradiction].
  apply find_message_quiet in H3. destruct H3 as [[-> [fi' [o' [Q2 [-> M2]]]]]|N]; [|contradiction].
  assert (fi = g) as -> by congruence. assert (fi' = g) as -> by congruence.
  apply at_ok in Hs. exists s, i', o'. split; [exact Hs|]. split; [apply Nat.eqb_eq; exact Hl|].
  split; [exact M1|]. split; [exact M2|]. inversion H. reflexivity.
Qed.

Lemma enum_value_quiet path full f enum index x p p' :
  resolve_enum_value X path full f enum index x (V p []) = Ok (V p' []) ->
  exists e pos found, nth_error (p_enums p) enum = Some e /\
    enum_number_spec (raws p) (eids p) enum (snd x) /\
    x_search X (e_numbers e) (snd x) = (pos, found) /\
    (found = true -> e_alias e = true) /\ assoc_s (fst x) (e_names e) = None /\
    p' = set_enums (upd enum (fun e => EnumI (e_id e) (e_parent e) (e_values e)
                                       (insert_at pos (snd x, index) (e_numbers e))
                                       (assoc_put (fst x) index (e_names e)) (e_alias e)) (p_enums p)) p.
Proof.
  intros H. unfold resolve_enum_value in H. apply rbind_ok in H. destruct H as [v1 [H1 H]].
  apply rbind_ok in H. destruct H as [en [He H]]. destruct (x_search X _ _) as [pos found] eqn:S.
  apply rbind_ok in H. destruct H as [v2 [H2 H]].
  assert (v_errs v2 = []) as E2 by exact (grows_quiet _ _ (grows_opt_push _ _ _ _ _ H) eq_refl).
  assert (v2 = v1 /\ (found = true -> e_alias en = true)) as [-> Ha].
  { destruct (found && negb (e_alias en)) eqn:B; [exfalso; exact (noisy_push _ _ _ _ H2 E2)|].
    apply Ok_inj in H2. split; [congruence|]. intros ->. destruct (e_alias en); [reflexivity|discriminate]. }
  apply enum_number_quiet in H1. destruct H1 as [[-> Hn]|N]; [|contradiction].
  apply at_ok in He. cbn [v_pool] in *. exists en, pos, found. split; [exact He|]. split; [exact Hn|].
  split; [exact S|]. split; [exact Ha|].
  destruct (assoc_s (fst x) (e_names en)); [exfalso; exact (noisy_push _ _ _ _ H eq_refl)|].
  split; [reflexivity|]. inversion H. reflexivity.
Qed.

Definition ext_of (fi : file_inner) path full f parent (fd : fproto) (e : nat) (k : kind) (d : option value) : ext_inner :=
  let c := fp_label fd in
  ExtI (mk_id f path full (fp_name fd)) parent (as_u32 (fp_number fd)) (bracketed full)
       e k (packed_of c (Some k) (fi_syntax fi) fd) c d.
Definition the_extendee (fd : fproto) : str := match fp_extendee fd with Some e => e | None => [] end.

Lemma ext_quiet path full f parent index fd p p' g :
  nth_error (p_files p) f = Some g ->
  resolve_ext X path full f parent index fd (V p []) = Ok (V p' []) ->
  exists e k d, length (p_exts p) = index /\
    message_spec (p_names p) (fi_trans g) full (the_extendee fd) e /\
    number_spec (raws p) (mids p) e fd /\
    type_spec (p_names p) (fi_trans g) (fp_type fd) (fp_type_name fd) full k /\
    default_spec (p_enums p) k (fp_default fd) d /\
    p' = set_exts (p_exts p ++ [ext_of g path full f parent fd e k d])
           (set_messages (upd e (m_push_ext index) (p_messages p)) p).
Proof.
  intros Hg H. unfold resolve_ext in H. apply rbind_ok in H. destruct H as [v1 [H1 H]].
  apply assert_ok in H1. destruct H1 as [-> Hl].
  apply rbind_ok in H. destruct H as [[e v2] [H2 H]]. apply rbind_ok in H. destruct H as [v3 [H3 H]].
  apply rbind_ok in H. destruct H as [fi [Hfi H]]. apply rbind_ok in H. destruct H as [[k v4] [H4 H]].
  apply rbind_ok in H. destruct H as [j [_ H]]. apply rbind_ok in H. destruct H as [[d v5] [H5 H]].
  apply Ok_inj in H. assert (v_errs v5 = []) as E5 by (apply (f_equal v_errs) in H; exact H).
  assert (v_errs v4 = []) as E4 by exact (grows_quiet _ _ (grows_default _ _ _ _ _ _ H5) E5).
  assert (v_errs v3 = []) as E3 by exact (grows_quiet _ _ (grows_type _ _ _ _ _ _ _ _ H4) E4).
  assert (v_errs v2 = []) as E2.
  { destruct e as [e|]; [|apply Ok_inj in H3; subst; exact E3].
    apply rbind_ok in H3. destruct H3 as [mi [_ H3]].
    exact (grows_quiet (on_message e (m_push_ext index) v2) _ (grows_field_number _ _ _ _ _ H3) E3). }
  apply find_message_quiet in H2. destruct H2 as [[-> [fi' [e' [Q1 [-> M1]]]]]|N]; [|contradiction].
  assert (fi' = g) as -> by congruence.
  apply rbind_ok in H3. destruct H3 as [mi [Hmi H3]]. apply at_ok in Hmi. cbn [v_pool] in Hmi.
  unfold on_message, on_pool in H3. cbn [v_pool v_errs] in H3.
  set (p1 := set_messages (upd e' (m_push_ext index) (p_messages p)) p) in *.
  apply field_number_quiet in H3. destruct H3 as [[-> Hnum]|N]; [|contradiction].
  cbn [v_pool] in *. apply at_ok in Hfi. change (p_files p1) with (p_files p) in Hfi.
  assert (fi = g) as -> by congruence.
  apply (type_quiet _ _ _ _ _ p1 _ _ g Hg) in H4. destruct H4 as [[-> [k' [-> Hty]]]|N]; [|contradiction].
  cbn [default_of] in H5. apply parse_default_quiet in H5. destruct H5 as [[-> Hd]|N]; [|contradiction].
  exists e', k', d. split; [apply Nat.eqb_eq; exact Hl|]. split; [exact M1|].
  split.
  { assert (mids p1 = mids p) as Em; [|rewrite Em in Hnum; exact Hnum].
    unfold mids, p1. cbn. clear. revert e'. induction (p_messages p) as [|a l IH]; intros [|e']; cbn; f_equal; auto. }
  split; [exact Hty|]. split; [exact Hd|]. inversion H. reflexivity.
Qed.

(** *** Files *)

Definition pub_dep (fnames : list (str * nat)) (rs : list file) (a b : nat) : Prop :=
  exists f j d, nth_error rs a = Some f /\ nth_error (fl_deps f) j = Some d /\
    is_public f j = true /\ assoc_s d fnames = Some b.
Inductive pub_reach (fnames : list (str * nat)) (rs : list file) : nat -> nat -> Prop :=
| pr_refl a : pub_reach fnames rs a a
| pr_step a b c : pub_dep fnames rs a b -> pub_reach fnames rs b c -> pub_reach fnames rs a c.

Lemma set_insert_in x y l : In y (fst (set_insert x l)) <-> y = x \/ In y l.
Proof.
  unfold set_insert. destruct (existsb (Nat.eqb x) l) eqn:E; cbn.
  - apply existsb_exists in E. destruct E as [z [Hz E]]. apply Nat.eqb_eq in E. subst.
    split; [auto|]. intros [-> |H]; auto.
  - rewrite in_snoc. tauto.
Qed.

Lemma resolve_public_spec fuel : forall p deps index t,
  resolve_public fuel p deps index = Ok t ->
  (forall x, In x deps -> In x t) /\
  (forall b, pub_dep (p_file_names p) (raws p) index b -> In b t) /\
  (forall x, In x t -> In x deps \/ pub_reach (p_file_names p) (raws p) index x).
Proof.
  induction fuel as [|fuel IH]; intros p deps index t H; cbn in H; [discriminate|].
  apply rbind_ok in H. destruct H as [fi [Hf H]]. apply at_ok in Hf.
  assert (forall ds0 ds i deps t, fl_deps (fi_raw fi) = ds0 ++ ds -> length ds0 = i ->
    (fix go (i : nat) (ds : list str) (deps : list nat) : res (list nat) :=
         match ds with
         | [] => Ok deps
         | d :: r =>
             match assoc_s d (p_file_names p) with
             | Some di =>
                 if is_public (fi_raw fi) i then
                   let (deps', fresh) := set_insert di deps in
                   if negb fresh then
                     let! deps'' := resolve_public fuel p deps' di in go (S i) r deps''
                   else go (S i) r deps'
                 else go (S i) r deps
             | None => go (S i) r deps
             end
         end) i ds deps = Ok t ->
    (forall x, In x deps -> In x t) /\
    (forall j d b, nth_error ds j = Some d -> is_public (fi_raw fi) (i + j) = true ->
       assoc_s d (p_file_names p) = Some b -> In b t) /\
    (forall x, In x t -> In x deps \/ pub_reach (p_file_names p) (raws p) index x)) as G.
  { clear H deps t. intros ds0 ds. revert ds0. induction ds as [|d ds IHd]; intros ds0 i deps t Eds Ei H.
    - inversion H; subst. split; [auto|]. split; [intros [|j] d b E; discriminate|auto].
    - assert (fl_deps (fi_raw fi) = (ds0 ++ [d]) ++ ds) as Eds' by (rewrite <- app_assoc; exact Eds).
      assert (length (ds0 ++ [d]) = S i) as Ei' by (rewrite app_length; cbn; lia).
      destruct (assoc_s d (p_file_names p)) as [di|] eqn:Ed.
      + destruct (is_public (fi_raw fi) i) eqn:Pi.
        * assert (pub_dep (p_file_names p) (raws p) index di) as PD.
          { exists (fi_raw fi), i, d. split; [unfold raws; rewrite nth_error_map, Hf; reflexivity|].
            split; [rewrite Eds, nth_error_app2, Ei by lia; rewrite <- Ei, Nat.sub_diag; reflexivity|]. auto. }
          pose proof (set_insert_in di) as SI.
          destruct (set_insert di deps) as [deps' fresh] eqn:Es.
          assert (forall y, In y deps' <-> y = di \/ In y deps) as SI'.
          { intros y. specialize (SI y deps). rewrite Es in SI. exact SI. }
          destruct (negb fresh).
          -- apply rbind_ok in H. destruct H as [d2 [H1 H2]].
             destruct (IH _ _ _ _ H1) as [A1 [A2 A3]].
             destruct (IHd _ _ _ _ Eds' Ei' H2) as [B1 [B2 B3]].
             split; [intros x Hx; apply B1, A1, SI'; auto|]. split.
             ++ intros [|j] d' b E Pb Ab.
                ** cbn in E. apply Some_inj in E. subst d'. rewrite Ed in Ab. apply Some_inj in Ab. subst b.
                   apply B1, A1, SI'. auto.
                ** cbn in E. apply (B2 j d' b E); [|exact Ab]. rewrite <- Pb. f_equal. lia.
             ++ intros x Hx. destruct (B3 _ Hx) as [Hy|Hy]; [|auto].
                destruct (A3 _ Hy) as [Hz|Hz].
                ** apply SI' in Hz. destruct Hz as [-> |Hz]; [|auto]. right. eapply pr_step; [exact PD|constructor].
                ** right. eapply pr_step; [exact PD|exact Hz].
          -- destruct (IHd _ _ _ _ Eds' Ei' H) as [B1 [B2 B3]].
             split; [intros x Hx; apply B1, SI'; auto|]. split.
             ++ intros [|j] d' b E Pb Ab.
                ** cbn in E. apply Some_inj in E. subst d'. rewrite Ed in Ab. apply Some_inj in Ab. subst b.
                   apply B1, SI'. auto.
                ** cbn in E. apply (B2 j d' b E); [|exact Ab]. rewrite <- Pb. f_equal. lia.
             ++ intros x Hx. destruct (B3 _ Hx) as [Hz|Hy]; [|auto].
                apply SI' in Hz. destruct Hz as [-> |Hz]; [|auto]. right. eapply pr_step; [exact PD|constructor].
        * destruct (IHd _ _ _ _ Eds' Ei' H) as [B1 [B2 B3]]. split; [exact B1|]. split; [|exact B3].
          intros [|j] d' b E Pb Ab; [rewrite Nat.add_0_r in Pb; congruence|].
          cbn in E. apply (B2 j d' b E); [|exact Ab]. rewrite <- Pb. f_equal. lia.
      + destruct (IHd _ _ _ _ Eds' Ei' H) as [B1 [B2 B3]]. split; [exact B1|]. split; [|exact B3].
        intros [|j] d' b E Pb Ab; [cbn in E; apply Some_inj in E; congruence|].
        cbn in E. apply (B2 j d' b E); [|exact Ab]. rewrite <- Pb. f_equal. lia. }
  destruct (G [] _ _ _ _ eq_refl eq_refl H) as [A [B C]].
  split; [exact A|]. split; [|exact C].
  intros b [f [j [d [Q1 [Q2 [Q3 Q4]]]]]]. unfold raws in Q1. rewrite nth_error_map, Hf in Q1. cbn in Q1.
  apply Some_inj in Q1. subst f. exact (B j d b Q2 Q3 Q4).
Qed.

(** what the imports of a file come to *)
Record deps_spec (fnames : list (str * nat)) (rs : list file) (i : nat) (f : file) (deps trans : list nat) : Prop := {
  ds_deps : Forall2 (fun d j => assoc_s d fnames = Some j) (fl_deps f) deps;
  ds_self : In i trans;
  ds_direct : forall j, In j deps -> In j trans;
  ds_public : forall j b, In j deps -> pub_dep fnames rs j b -> In b trans;
  ds_sound : forall x, In x trans -> x = i \/ exists j, In j deps /\ pub_reach fnames rs j x;
  ds_pidx : Forall (fun z => (0 <= z)%Z /\ (Z.to_nat z < length (fl_deps f))%nat) (fl_public f);
  ds_widx : Forall (fun z => (0 <= z)%Z /\ (Z.to_nat z < length (fl_deps f))%nat) (fl_weak f)
}.

Lemma raws_upd g i p fn : (forall x, fi_raw (g x) = fi_raw x) -> raws (set_files fn (upd i g (p_files p)) p) = raws p.
Proof.
  intros H. unfold raws. cbn. revert i. induction (p_files p) as [|a l IH]; intros [|i]; cbn; f_equal; auto.
Qed.

Lemma resolve_deps_quiet fuel index : forall ds k trans p t p' fi0,
  nth_error (p_files p) index = Some fi0 ->
  resolve_deps fuel index k ds trans (V p []) = Ok (t, V p' []) ->
  exists new, Forall2 (fun d j => assoc_s d (p_file_names p) = Some j) ds new /\
    (forall x, In x trans -> In x t) /\
    (forall j, In j new -> In j t) /\
    (forall j b, In j new -> pub_dep (p_file_names p) (raws p) j b -> In b t) /\
    (forall x, In x t -> In x trans \/ exists j, In j new /\ pub_reach (p_file_names p) (raws p) j x) /\
    p' = set_files (p_file_names p)
           (upd index (fun f => FileI (fi_syntax f) (fi_raw f) (fi_deps f ++ new) (fi_trans f)) (p_files p)) p.
Proof.
  induction ds as [|d ds IH]; intros k trans p t p' fi0 H0 H; cbn [resolve_deps] in H.
  - inversion H; subst. exists []. split; [constructor|]. split; [auto|]. split; [intros j []|].
    split; [intros j b []|]. split; [auto|].
    rewrite upd_id by (intros [? ? ? ?]; cbn; rewrite app_nil_r; reflexivity). destruct p'; reflexivity.
  - cbn [v_pool] in H. destruct (assoc_s d (p_file_names p)) as [di|] eqn:Ed.
    + apply rbind_ok in H. destruct H as [fi [_ H]]. apply rbind_ok in H. destruct H as [t1 [H1 H]].
      unfold on_pool in H, H1. cbn [v_pool v_errs] in H, H1.
      set (p1 := set_files (p_file_names p) (upd index (fi_push_dep di) (p_files p)) p) in *.
      assert (raws p1 = raws p) as Er by (apply raws_upd; reflexivity).
      destruct (resolve_public_spec _ _ _ _ _ H1) as [A1 [A2 A3]]. rewrite Er in A2, A3.
      change (p_file_names p1) with (p_file_names p) in A2, A3.
      destruct (IH (Datatypes.S k) t1 p1 t p' (fi_push_dep di fi0)) as [new [B1 [B2 [B3 [B4 [B5 B6]]]]]].
      { unfold p1. cbn. rewrite nth_upd, Nat.eqb_refl, H0. reflexivity. }
      { exact H. }
      rewrite Er in B4, B5. change (p_file_names p1) with (p_file_names p) in B1, B4, B5, B6.
      exists (di :: new). split; [constructor; assumption|].
      split; [intros x Hx; apply B2, A1, set_insert_in; auto|].
      split; [intros j [<- | Hj]; [apply B2, A1, set_insert_in; auto|auto]|].
      split; [intros j b [<- | Hj] Hb; [apply B2, A2; exact Hb|eauto]|].
      split.
      { intros x Hx. destruct (B5 _ Hx) as [Hy|[j [Hj Hy]]]; [|right; exists j; split; [right; exact Hj|exact Hy]].
        destruct (A3 _ Hy) as [Hz|Hz].
        - apply set_insert_in in Hz. destruct Hz as [-> |Hz]; [|auto]. right. exists di. split; [left; reflexivity|constructor].
        - right. exists di. split; [left; reflexivity|exact Hz]. }
      rewrite B6. unfold p1, set_files. cbn. rewrite upd_upd. f_equal.
      assert (forall g h l i, (forall a : file_inner, g a = h a) -> upd i g l = upd i h l) as UE.
      { clear. intros g h l. induction l as [|a l IH]; intros [|i] E; cbn; f_equal; auto. }
      apply UE. intros a. cbn. rewrite <- app_assoc. reflexivity.
    + apply rbind_ok in H. destruct H as [v1 [H1 H]]. exfalso. apply (noisy_push _ _ _ _ H1).
      exact (grows_quiet _ _ (grows_deps _ _ _ _ _ _ _ _ H) eq_refl).
Qed.

Lemma import_quiet n z p v : check_import_index n z (V p []) = Ok v ->
  (v = V p [] /\ (0 <= z)%Z /\ (Z.to_nat z < n)%nat) \/ v_errs v <> [].
Proof.
  unfold check_import_index. destruct ((0 <=? z)%Z && (Z.to_nat z <? n)%nat) eqn:B; intros H.
  - apply Ok_inj in H. subst. left. apply andb_true_iff in B. destruct B as [B1 B2].
    apply Z.leb_le in B1. apply Nat.ltb_lt in B2. auto.
  - right. exact (noisy_push _ _ _ _ H).
Qed.

Lemma file_quiet fuel index f p p' sy :
  nth_error (p_files p) index = Some (FileI sy f [] []) ->
  resolve_file fuel index f (V p []) = Ok (V p' []) ->
  exists deps trans, deps_spec (p_file_names p) (raws p) index f deps trans /\
    p' = set_files (p_file_names p) (upd index (fun _ => FileI sy f deps trans) (p_files p)) p.
Proof.
  intros H0 H. unfold resolve_file in H. apply rbind_ok in H. destruct H as [[t [p1 es1]] [H1 H]].
  apply rbind_ok in H. destruct H as [fi [Hf H]]. apply rbind_ok in H. destruct H as [v2 [H2 H]].
  assert (v_errs v2 = []) as E2.
  { refine (grows_quiet v2 _ _ _); [eapply grows_fold; [|exact H]; intros; eapply grows_import; eassumption|reflexivity]. }
  assert (es1 = []) as ->.
  { refine (grows_quiet (on_pool (fun p => set_files (p_file_names p) (upd index (fi_set_trans t) (p_files p)) p) (V p1 es1)) v2 _ E2).
    eapply grows_fold; [|exact H2]; intros; eapply grows_import; eassumption. }
  destruct (resolve_deps_quiet _ _ _ _ _ _ _ _ _ H0 H1) as [new [B1 [B2 [B3 [B4 [B5 B6]]]]]].
  unfold on_pool in H2. cbn [v_pool v_errs] in H2.
  apply (quiet_fold_pred _ (fun z => (0 <= z)%Z /\ (Z.to_nat z < length (fl_deps f))%nat)) in H2;
    [|intros; eapply import_quiet; eassumption|intros; eapply grows_import; eassumption].
  destruct H2 as [[-> P1]|N]; [|contradiction].
  apply (quiet_fold_pred _ (fun z => (0 <= z)%Z /\ (Z.to_nat z < length (fl_deps f))%nat)) in H;
    [|intros; eapply import_quiet; eassumption|intros; eapply grows_import; eassumption].
  destruct H as [[Hp P2]|N]; [|contradiction]. 
  exists new, t. split.
  - constructor; auto.
    + apply B2. left. reflexivity.
    + intros x Hx. destruct (B5 _ Hx) as [[-> |[]]|Hy]; auto.
  - inversion Hp as [Hp']. subst p1. unfold set_files. cbn. rewrite upd_upd. f_equal.
    clear - H0. revert index H0. induction (p_files p) as [|a l IH]; intros [|i] H0; cbn in *; try discriminate.
    + apply Some_inj in H0. subst. reflexivity.
    + f_equal. apply IH. exact H0.
Qed.
End X.
