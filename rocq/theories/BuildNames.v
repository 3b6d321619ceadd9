(** What the first phase of a build leaves when it reports no error. *)
From Verif Require Import Base BaseProofs Value Descr Proto Build VisitProofs EventProofs BuildFrame.

(** ** Errors only accumulate *)

Definition grows (v v' : vst) : Prop := exists l, v_errs v' = v_errs v ++ l.
Lemma grows_refl v : grows v v.
Proof. exists []. rewrite app_nil_r. reflexivity. Qed.
Lemma grows_trans a b c : grows a b -> grows b c -> grows a c.
Proof. intros [l E] [l' E']. exists (l ++ l'). rewrite E', E, app_assoc. reflexivity. Qed.
Lemma grows_quiet v v' : grows v v' -> v_errs v' = [] -> v_errs v = [].
Proof. intros [l E] H. rewrite H in E. destruct (v_errs v); [reflexivity|discriminate]. Qed.
Lemma grows_push l e v v' : push_err l e v = Ok v' -> grows v v'.
Proof.
  unfold push_err. destruct (forallb _ l); [|discriminate]. intros H. apply Ok_inj in H. subst.
  exists [e]. reflexivity.
Qed.
Lemma push_not_quiet l e v v' : push_err l e v = Ok v' -> v_errs v' <> [].
Proof.
  unfold push_err. destruct (forallb _ l); [|discriminate]. intros H. apply Ok_inj in H. subst. cbn.
  destruct (v_errs v); discriminate.
Qed.
Lemma grows_fold {A} (g : A -> vst -> res vst) l :
  (forall a v v', g a v = Ok v' -> grows v v') -> forall v v', fold_res g l v = Ok v' -> grows v v'.
Proof.
  intros H. induction l as [|a l IH]; intros v v' E; cbn in E; [apply Ok_inj in E; subst; apply grows_refl|].
  apply rbind_ok in E. destruct E as [v1 [E1 E2]].
  eapply grows_trans; [exact (H _ _ _ E1)|exact (IH _ _ E2)].
Qed.

Lemma quiet_fold {A} (g : A -> vst -> res vst) (P : list A -> pool -> Prop) l :
  (forall a v v', g a v = Ok v' -> grows v v') ->
  forall p p', P [] p ->
  (forall done e rest pa pb, l = done ++ e :: rest -> P done pa ->
     g e (V pa []) = Ok (V pb []) -> P (done ++ [e]) pb) ->
  fold_res g l (V p []) = Ok (V p' []) -> P l p'.
Proof.
  intros Hg p p' H0 Hs H.
  assert (forall todo done pa, l = done ++ todo -> P done pa -> fold_res g todo (V pa []) = Ok (V p' []) ->
            P l p') as G.
  2: { exact (G l [] p eq_refl H0 H). }
  clear H0 H. induction todo as [|e todo IH]; intros done pa El Hp H; cbn in H.
  - inversion H; subst. rewrite app_nil_r. exact Hp.
  - apply rbind_ok in H. destruct H as [[pb es] [H1 H2]].
    pose proof (grows_quiet _ _ (grows_fold g todo Hg _ _ H2) eq_refl) as Q. cbn in Q. subst es.
    apply (IH (done ++ [e]) pb); [rewrite <- app_assoc; exact El| |exact H2].
    eapply Hs; eassumption.
Qed.

Ltac grow := repeat (match goal with
  | H : _ = Ok _ |- _ => apply rbind_ok in H; destruct H as [? [? H]]
  | H : assert _ _ = Ok _ |- _ => apply assert_ok in H; destruct H as [-> _]
  end).

Lemma grows_on_pool g v : grows v (on_pool g v).
Proof. exists []. cbn. rewrite app_nil_r. reflexivity. Qed.
Lemma grows_add_name f n path k v v' : add_name f n path k v = Ok v' -> grows v v'.
Proof.
  unfold add_name. destruct (assoc_s n _) as [d|].
  - destruct (_ && _); [intros H; apply Ok_inj in H; subst; apply grows_refl|apply grows_push].
  - intros H; apply Ok_inj in H; subst. apply grows_on_pool.
Qed.
Lemma grows_camel f fs : forall i seen v v', check_camel f i seen fs v = Ok v' -> grows v v'.
Proof.
  induction fs as [|x fs IH]; intros i seen v v' H; cbn in H; [apply Ok_inj in H; subst; apply grows_refl|].
  destruct (existsb (bytes_eqb (to_lower_without_underscores (fp_name x))) seen).
  - apply rbind_ok in H. destruct H as [v1 [H1 H2]].
    eapply grows_trans; [exact (grows_push _ _ _ _ H1)|exact (IH _ _ _ _ H2)].
  - exact (IH _ _ _ _ H).
Qed.

Lemma grows_names e v v' : names_step e v = Ok v' -> grows v v'.
Proof.
  intros H. destruct e; cbn [names_step] in H; try (exact (grows_add_name _ _ _ _ _ _ H)).
  - unfold names_file in H. apply rbind_ok in H. destruct H as [v1 [H1 H]].
    apply assert_ok in H1. destruct H1 as [-> _].
    destruct (file_syntax f) as [sy|]; [|exact (grows_push _ _ _ _ H)].
    apply rbind_ok in H. destruct H as [v2 [H2 H]].
    assert (grows v v2) as G2.
    { destruct (assoc_s (fl_name f) (p_file_names (v_pool v))).
      - eapply grows_trans; [|exact (grows_push _ _ _ _ H2)]. apply grows_on_pool.
      - apply Ok_inj in H2. subst. apply grows_on_pool. }
    eapply grows_trans; [exact G2|].
    destruct (fl_package f) as [|c pkg]; [apply Ok_inj in H; subst; apply grows_on_pool|].
    apply rbind_ok in H. destruct H as [v3 [H3 H]].
    eapply grows_trans; [|exact (grows_add_name _ _ _ _ _ _ H)].
    eapply grows_trans; [apply grows_on_pool|].
    eapply grows_fold; [|exact H3]. intros a x y. apply grows_add_name.
  - unfold names_message in H. apply rbind_ok in H. destruct H as [v1 [H1 H]].
    apply rbind_ok in H. destruct H as [v2 [H2 H]]. apply assert_ok in H2. destruct H2 as [-> _].
    apply rbind_ok in H. destruct H as [fi [H3 H]].
    eapply grows_trans; [exact (grows_add_name _ _ _ _ _ _ H1)|].
    destruct (fi_syntax fi); [apply Ok_inj in H; subst; apply grows_on_pool|].
    eapply grows_trans; [|exact (grows_camel _ _ _ _ _ _ H)]. apply grows_on_pool.
  - unfold names_oneof in H. apply rbind_ok in H. destruct H as [v1 [H1 H]].
    apply rbind_ok in H. destruct H as [m [H2 H]]. apply rbind_ok in H. destruct H as [v2 [H3 H]].
    apply assert_ok in H3. destruct H3 as [-> _]. apply Ok_inj in H; subst.
    eapply grows_trans; [exact (grows_add_name _ _ _ _ _ _ H1)|apply grows_on_pool].
  - unfold names_enum in H. apply rbind_ok in H. destruct H as [v1 [H1 H]].
    apply rbind_ok in H. destruct H as [v2 [H2 H]]. apply rbind_ok in H. destruct H as [v3 [H3 H]].
    apply assert_ok in H3. destruct H3 as [-> _]. apply Ok_inj in H; subst.
    eapply grows_trans; [exact (grows_add_name _ _ _ _ _ _ H1)|].
    eapply grows_trans; [|apply grows_on_pool].
    destruct (ep_values e).
    + exact (grows_push _ _ _ _ H2).
    + apply rbind_ok in H2. destruct H2 as [fi [_ H2]]. destruct (fi_syntax fi).
      * apply Ok_inj in H2; subst; apply grows_refl.
      * destruct (snd p =? 0)%Z; [apply Ok_inj in H2; subst; apply grows_refl|exact (grows_push _ _ _ _ H2)].
  - unfold names_enum_value in H. apply rbind_ok in H. destruct H as [v1 [H1 H]].
    apply rbind_ok in H. destruct H as [m [H2 H]]. apply rbind_ok in H. destruct H as [v2 [H3 H]].
    apply assert_ok in H3. destruct H3 as [-> _]. apply Ok_inj in H; subst.
    eapply grows_trans; [exact (grows_add_name _ _ _ _ _ _ H1)|apply grows_on_pool].
Qed.

(** ** The names a call declares *)

Definition ev_defs (e : event) : list (str * def) :=
  match e with
  | EvFile _ _ _ => []
  | EvMessage path full f _ i _ => [(full, Def f (path ++ [1%Z]) (DMessage i))]
  | EvField path full f m _ _ => [(full, Def f (path ++ [1%Z]) (DField m))]
  | EvOneof path full f m _ _ => [(full, Def f (path ++ [1%Z]) (DOneof m))]
  | EvService path full f i _ => [(full, Def f (path ++ [1%Z]) (DService i))]
  | EvMethod path full f s _ _ => [(full, Def f (path ++ [1%Z]) (DMethod s))]
  | EvEnum path full f _ i _ => [(full, Def f (path ++ [1%Z]) (DEnum i))]
  | EvEnumValue path full f e _ _ => [(full, Def f (path ++ [1%Z]) (DEnumValue e))]
  | EvExt path full f _ i _ => [(full, Def f (path ++ [1%Z]) (DExtension i))]
  end.
Definition nonpkg (nd : str * def) : bool := negb (is_package (d_kind (snd nd))).
(** a package declares itself and the packages around it *)
Definition pkg_prefixes (f : file) : list str :=
  match fl_package f with [] => [] | pkg => before_dots [] pkg ++ [pkg] end.

Definition mk_oneof (e : event) : oneof_inner :=
  match e with
  | EvOneof path full f _ _ name => OneofI (mk_id f path full name) []
  | _ => OneofI (Ident 0 [] [] 0) []
  end.
Definition mk_value (e : event) : enum_value_inner :=
  match e with
  | EvEnumValue path full f _ _ x => EnumValueI (mk_id f path full (fst x)) (snd x)
  | _ => EnumValueI (Ident 0 [] [] 0) 0
  end.
Definition ev_file (e : event) : list (str * nat) :=
  match e with EvFile _ i f => [(fl_name f, i)] | _ => [] end.

Definition syntax_at (files : list file_inner) (f : nat) : option syntax :=
  option_map fi_syntax (nth_error files f).

(** names *)
Record NN (p0 : pool) (done : list event) (names : list (str * def)) : Prop := {
  ni_defs : filter nonpkg names = rev (flat_map ev_defs done) ++ filter nonpkg (p_names p0);
  ni_nodup : NoDup (map fst (p_names p0)) -> NoDup (map fst names);
  ni_pkg1 : forall n d, In (n, d) names -> d_kind d = DPackage ->
    In (n, d) (p_names p0) \/
    exists path i f, In (EvFile path i f) done /\ In n (pkg_prefixes f) /\ d_file d = i;
  ni_pkg2 : forall path i f n, In (EvFile path i f) done -> In n (pkg_prefixes f) ->
    exists d, In (n, d) names /\ d_kind d = DPackage;
  ni_old : forall nd, In nd (p_names p0) -> In nd names
}.

(** files *)
Record NF (o : offsets) (p0 : pool) (done : list event) (files : list file_inner)
    (fnames : list (str * nat)) : Prop := {
  ni_nfiles : length files = of_file (adv o done);
  ni_files : forall path i f, In (EvFile path i f) done ->
    exists sy, file_syntax f = Some sy /\ nth_error files i = Some (FileI sy f [] []);
  ni_fnames : fnames = p_file_names p0 ++ flat_map ev_file done;
  ni_fnodup : NoDup (map fst (p_file_names p0)) -> NoDup (map fst fnames)
}.

(** messages, with their oneofs *)
Definition names_msg (done : list event) path full f parent i (m : dproto) : message_inner :=
  MessageI (mk_id f path full (dp_name m)) parent [] [] [] [] []
           (map mk_oneof (kids 1 i done)) (dp_map_entry m).
Record NM (o : offsets) (done : list event) (files : list file_inner) (msgs : list message_inner) : Prop := {
  ni_nmsgs : length msgs = of_msg (adv o done);
  ni_msgs : forall path full f parent i m, In (EvMessage path full f parent i m) done ->
    nth_error msgs i = Some (names_msg done path full f parent i m) /\
    (syntax_at files f = Some Proto3 ->
     NoDup (map (fun x => to_lower_without_underscores (fp_name x)) (dp_fields m)))
}.

(** enums, with their values *)
Definition names_enum_inner (done : list event) path full f parent i (e : eproto) : enum_inner :=
  EnumI (mk_id f path full (ep_name e)) parent (map mk_value (kids 3 i done)) [] [] (allow_alias e).
Record NE (o : offsets) (done : list event) (files : list file_inner) (enums : list enum_inner) : Prop := {
  ni_nenums : length enums = of_enum (adv o done);
  ni_enums : forall path full f parent i e, In (EvEnum path full f parent i e) done ->
    nth_error enums i = Some (names_enum_inner done path full f parent i e) /\
    ep_values e <> [] /\
    (syntax_at files f = Some Proto3 -> exists v vs, ep_values e = v :: vs /\ snd v = 0%Z)
}.

Record NI (o : offsets) (p0 : pool) (done : list event) (p : pool) : Prop := {
  ni_nn : NN p0 done (p_names p);
  ni_nf : NF o p0 done (p_files p) (p_file_names p);
  ni_nm : NM o done (p_files p) (p_messages p);
  ni_ne : NE o done (p_files p) (p_enums p);
  ni_exts : p_exts p = p_exts p0;
  ni_services : p_services p = p_services p0
}.

Lemma add_name_quiet f n path k p p' :
  add_name f n path k (V p []) = Ok (V p' []) ->
  (is_package k = true /\ p' = p /\ exists d, assoc_s n (p_names p) = Some d /\ is_package (d_kind d) = true) \/
  (assoc_s n (p_names p) = None /\ p' = set_names ((n, Def f path k) :: p_names p) p).
Proof.
  unfold add_name. cbn [v_pool]. destruct (assoc_s n (p_names p)) as [d|] eqn:E; intros H.
  - left. destruct (is_package k && is_package (d_kind d)) eqn:B.
    + apply andb_true_iff in B. inversion H; subst. intuition. exists d. auto.
    + exfalso. exact (push_not_quiet _ _ _ _ H eq_refl).
  - right. inversion H; subst. auto.
Qed.
Lemma add_def_quiet f n path k p p' :
  is_package k = false -> add_name f n path k (V p []) = Ok (V p' []) ->
  assoc_s n (p_names p) = None /\ p' = set_names ((n, Def f path k) :: p_names p) p.
Proof. intros Hk H. apply add_name_quiet in H. destruct H as [[H _]|H]; [congruence|exact H]. Qed.

(** adding the packages of a file *)
Lemma add_pkgs_quiet i path l : forall p p',
  fold_res (fun pre => add_name i pre path DPackage) l (V p []) = Ok (V p' []) ->
  exists news, p' = set_names (news ++ p_names p) p /\
    Forall (fun nd => d_kind (snd nd) = DPackage /\ d_file (snd nd) = i /\ In (fst nd) l) news /\
    (NoDup (map fst (p_names p)) -> NoDup (map fst (p_names p'))) /\
    (forall n, In n l -> exists d, In (n, d) (p_names p') /\ d_kind d = DPackage).
Proof.
  induction l as [|a l IH]; intros p p' H.
  - cbn in H. inversion H; subst. exists []. cbn. split; [destruct p'; reflexivity|].
    split; [constructor|]. split; [auto|intros n []].
  - cbn [fold_res] in H. apply rbind_ok in H. destruct H as [[p1 es] [H1 H2]].
    assert (es = []) as ->.
    { pose proof (grows_quiet _ _ (grows_fold _ l (fun a0 v v' => grows_add_name i a0 path DPackage v v') _ _ H2) eq_refl) as Q. exact Q. }
    destruct (IH _ _ H2) as [news [E [F [N P]]]].
    apply add_name_quiet in H1. destruct H1 as [[_ [-> [d [Hd Hp]]]]|[Hn ->]].
    + exists news. split; [exact E|]. split.
      { eapply Forall_impl; [|exact F]. cbn. intuition. }
      split; [exact N|]. intros n [<- | Hi]; [|exact (P _ Hi)].
      exists d. rewrite E. cbn. split; [apply in_or_app; right; apply assoc_s_In; exact Hd|].
      destruct (d_kind d); try discriminate. reflexivity.
    + exists (news ++ [(a, Def i path DPackage)]). split.
      { rewrite E. cbn. unfold set_names. cbn. rewrite <- app_assoc. reflexivity. }
      split.
      { apply Forall_app. split; [eapply Forall_impl; [|exact F]; cbn; intuition|].
        constructor; [|constructor]. cbn. auto. }
      split.
      { intros Hnd. apply N. cbn. constructor; [|exact Hnd]. apply assoc_s_None. exact Hn. }
      intros n [<- | Hi]; [|exact (P _ Hi)]. exists (Def i path DPackage).
      rewrite E. cbn. split; [apply in_or_app; right; left; reflexivity|reflexivity].
Qed.

Lemma camel_quiet f fs : forall i seen p p',
  NoDup seen ->
  check_camel f i seen fs (V p []) = Ok (V p' []) ->
  NoDup (rev (map (fun x => to_lower_without_underscores (fp_name x)) fs) ++ seen).
Proof.
  induction fs as [|x fs IH]; intros i seen p p' Hn H; cbn in H.
  - exact Hn.
  - destruct (existsb (bytes_eqb (to_lower_without_underscores (fp_name x))) seen) eqn:E.
    + exfalso. apply rbind_ok in H. destruct H as [v1 [H1 H2]].
      apply (push_not_quiet _ _ _ _ H1). apply (grows_quiet _ _ (grows_camel _ _ _ _ _ _ H2)). reflexivity.
    + apply IH in H.
      * cbn [map rev]. rewrite <- app_assoc. exact H.
      * constructor; [|exact Hn]. intros Hi. assert (existsb (bytes_eqb (to_lower_without_underscores (fp_name x))) seen = true); [|congruence].
        apply existsb_exists. eexists. split; [exact Hi|apply bytes_eqb_refl].
Qed.

Lemma kids_snoc k i done e : kids k i (done ++ [e]) = kids k i done ++ (if owned k i e then [e] else []).
Proof. rewrite kids_app. unfold kids at 2. cbn. destruct (owned k i e); reflexivity. Qed.
Lemma kids_snoc_head k i done e : owner e = None -> kids k i (done ++ [e]) = kids k i done.
Proof. intros H. rewrite kids_snoc. unfold owned. rewrite H. apply app_nil_r. Qed.

Lemma owner_range o done e k i : scoped o done -> In e done -> owner e = Some (k, i) ->
  (i < oget (adv o done) k)%nat.
Proof.
  intros Hs He E. destruct (scoped_in _ _ Hs _ He) as [o' [_ [B [C1 [C2 [C3 [C4 C5]]]]]]].
  destruct e; cbn in E; try discriminate; inversion E; subst; cbn in *; lia.
Qed.
Lemma kids_fresh o done k i : scoped o done -> (oget (adv o done) k <= i)%nat -> kids k i done = [].
Proof.
  intros Hs Hi. apply kids_none. intros e He E. pose proof (owner_range _ _ _ _ _ Hs He E). lia.
Qed.
Lemma adv_snoc o done e : adv o (done ++ [e]) = adv1 (adv o done) e.
Proof. rewrite adv_app. reflexivity. Qed.

Lemma in_snoc {A} (x : A) l e : In x (l ++ [e]) <-> In x l \/ x = e.
Proof. rewrite in_app_iff. cbn. intuition. Qed.
Lemma flat_map_snoc {A B} (g : A -> list B) l e : flat_map g (l ++ [e]) = flat_map g l ++ g e.
Proof. rewrite flat_map_app. cbn. rewrite app_nil_r. reflexivity. Qed.

Lemma msg_index_range o done path full f parent i m : scoped o done ->
  In (EvMessage path full f parent i m) done ->
  (of_msg o <= i < of_msg (adv o done))%nat /\ (of_file o <= S f <= of_file (adv o done))%nat.
Proof.
  intros Hs He. destruct (scoped_in _ _ Hs _ He) as [o' [[A1 [A2 [A3 [A4 A5]]]] [B [C1 [C2 [C3 [C4 C5]]]]]]].
  cbn in *. lia.
Qed.
Lemma enum_index_range o done path full f parent i m : scoped o done ->
  In (EvEnum path full f parent i m) done ->
  (of_enum o <= i < of_enum (adv o done))%nat /\ (of_file o <= S f <= of_file (adv o done))%nat.
Proof.
  intros Hs He. destruct (scoped_in _ _ Hs _ He) as [o' [[A1 [A2 [A3 [A4 A5]]]] [B [C1 [C2 [C3 [C4 C5]]]]]]].
  cbn in *. lia.
Qed.
Lemma file_index_range o done path i f : scoped o done ->
  In (EvFile path i f) done -> (of_file o <= i < of_file (adv o done))%nat.
Proof.
  intros Hs He. destruct (scoped_in _ _ Hs _ He) as [o' [[A1 [A2 [A3 [A4 A5]]]] [B [C1 [C2 [C3 [C4 C5]]]]]]].
  cbn in *. lia.
Qed.

Lemma NN_add p0 done e names n d :
  NN p0 done names -> ev_defs e = [(n, d)] -> is_package (d_kind d) = false ->
  (forall path i f, e <> EvFile path i f) ->
  assoc_s n names = None -> NN p0 (done ++ [e]) ((n, d) :: names).
Proof.
  intros [D N P1 P2 O] E K F A. constructor.
  - cbn [filter]. unfold nonpkg at 1. cbn [snd]. rewrite K. cbn [negb]. rewrite flat_map_snoc, rev_app_distr, E, D.
    reflexivity.
  - intros H0. cbn. constructor; [apply assoc_s_None; exact A|auto].
  - intros n' d' [E'|Hi] Hk.
    + inversion E'; subst. rewrite Hk in K. discriminate.
    + destruct (P1 _ _ Hi Hk) as [H|[path [i [f [H1 H2]]]]]; [left; exact H|right].
      exists path, i, f. split; [apply in_snoc; left; exact H1|exact H2].
  - intros path i f n' Hi Hn. apply in_snoc in Hi. destruct Hi as [Hi|Hi]; [|exfalso; exact (F _ _ _ (eq_sym Hi))].
    destruct (P2 _ _ _ _ Hi Hn) as [d' [H1 H2]]. exists d'. split; [right; exact H1|exact H2].
  - intros nd Hi. right. apply O. exact Hi.
Qed.


Definition same_upto (n : nat) (files files' : list file_inner) : Prop :=
  forall f, (f < n)%nat -> nth_error files' f = nth_error files f.

Lemma NM_skip o done e files files' msgs :
  scoped o done -> NM o done files msgs -> same_upto (of_file (adv o done)) files files' ->
  of_msg (adv1 (adv o done) e) = of_msg (adv o done) ->
  (forall i, owned 1 i e = false) ->
  (forall path full f parent i m, e <> EvMessage path full f parent i m) ->
  NM o (done ++ [e]) files' msgs.
Proof.
  intros Hs [L M] Hf Ho Hk Hn. constructor.
  - rewrite adv_snoc, Ho. exact L.
  - intros path full f parent i m Hi. apply in_snoc in Hi.
    destruct Hi as [Hi|Hi]; [|exfalso; exact (Hn _ _ _ _ _ _ (eq_sym Hi))].
    destruct (M _ _ _ _ _ _ Hi) as [H1 H2].
    destruct (msg_index_range _ _ _ _ _ _ _ _ Hs Hi) as [_ R].
    unfold names_msg. rewrite kids_snoc, Hk, app_nil_r. split; [exact H1|].
    unfold syntax_at. rewrite Hf by lia. exact H2.
Qed.
Lemma NE_skip o done e files files' enums :
  scoped o done -> NE o done files enums -> same_upto (of_file (adv o done)) files files' ->
  of_enum (adv1 (adv o done) e) = of_enum (adv o done) ->
  (forall i, owned 3 i e = false) ->
  (forall path full f parent i m, e <> EvEnum path full f parent i m) ->
  NE o (done ++ [e]) files' enums.
Proof.
  intros Hs [L M] Hf Ho Hk Hn. constructor.
  - rewrite adv_snoc, Ho. exact L.
  - intros path full f parent i m Hi. apply in_snoc in Hi.
    destruct Hi as [Hi|Hi]; [|exfalso; exact (Hn _ _ _ _ _ _ (eq_sym Hi))].
    destruct (M _ _ _ _ _ _ Hi) as [H1 [H2 H3]].
    destruct (enum_index_range _ _ _ _ _ _ _ _ Hs Hi) as [_ R].
    unfold names_enum_inner. rewrite kids_snoc, Hk, app_nil_r. split; [exact H1|].
    split; [exact H2|]. unfold syntax_at. rewrite Hf by lia. exact H3.
Qed.
Lemma NF_skip o p0 done e files fnames :
  NF o p0 done files fnames -> (forall path i f, e <> EvFile path i f) ->
  NF o p0 (done ++ [e]) files fnames.
Proof.
  intros [L F N D] Hn. constructor.
  - rewrite adv_snoc, L. destruct e; try reflexivity. exfalso. eapply Hn. reflexivity.
  - intros path i f Hi. apply in_snoc in Hi. destruct Hi as [Hi|Hi]; [eauto|exfalso; exact (Hn _ _ _ (eq_sym Hi))].
  - rewrite flat_map_snoc, N. destruct e; cbn; rewrite ?app_nil_r; try reflexivity. exfalso. eapply Hn. reflexivity.
  - exact D.
Qed.
Lemma same_upto_refl n files : same_upto n files files.
Proof. intros f _. reflexivity. Qed.

(** a call that only declares a name *)
Lemma NI_def o p0 done e p n d :
  scoped o done -> NI o p0 done p ->
  ev_defs e = [(n, d)] -> is_package (d_kind d) = false ->
  (forall path i f, e <> EvFile path i f) ->
  of_msg (adv1 (adv o done) e) = of_msg (adv o done) ->
  of_enum (adv1 (adv o done) e) = of_enum (adv o done) ->
  (forall i, owned 1 i e = false) -> (forall i, owned 3 i e = false) ->
  (forall path full f parent i m, e <> EvMessage path full f parent i m) ->
  (forall path full f parent i m, e <> EvEnum path full f parent i m) ->
  assoc_s n (p_names p) = None ->
  NI o p0 (done ++ [e]) (set_names ((n, d) :: p_names p) p).
Proof.
  intros Hs [A B C D E F] H1 H2 H3 H4 H5 H6 H7 H8 H9 H10. constructor; cbn; auto.
  - eapply NN_add; eauto.
  - apply NF_skip; auto.
  - eapply NM_skip; eauto using same_upto_refl.
  - eapply NE_skip; eauto using same_upto_refl.
Qed.

Lemma adv1_scoped_app o done e rest : scoped o (done ++ e :: rest) ->
  scoped o done /\ scoped1 (adv o done) e.
Proof. intros H. apply scoped_app in H. destruct H as [H1 [H2 _]]. auto. Qed.

Lemma names_file_NI o p0 done path i f p p' :
  scoped o done -> NI o p0 done p ->
  names_file path i f (V p []) = Ok (V p' []) -> NI o p0 (done ++ [EvFile path i f]) p'.
Proof.
  intros Hs [A B C D E F] H. unfold names_file in H.
  apply rbind_ok in H. destruct H as [v1 [H1 H]].
  apply assert_ok in H1. destruct H1 as [-> Hlen]. apply Nat.eqb_eq in Hlen. cbn [v_pool] in Hlen.
  destruct (file_syntax f) as [sy|] eqn:Sy; [|exfalso; exact (push_not_quiet _ _ _ _ H eq_refl)].
  cbn [v_pool on_pool] in H.
  destruct (assoc_s (fl_name f) (p_file_names p)) as [j|] eqn:Fn.
  { exfalso. apply rbind_ok in H. destruct H as [v2 [H2 H]]. apply (push_not_quiet _ _ _ _ H2).
    refine (grows_quiet v2 (V p' []) _ eq_refl).
    destruct (fl_package f) as [|c pkg]; [apply Ok_inj in H; rewrite <- H; apply grows_on_pool|].
    apply rbind_ok in H. destruct H as [v3 [H3 H]].
    eapply grows_trans; [|exact (grows_add_name _ _ _ _ _ _ H)].
    eapply grows_trans; [apply (grows_on_pool (fun p1 => set_files (p_file_names p1) (p_files p1 ++ [FileI sy f [] []]) p1))|].
    eapply grows_fold; [|exact H3]. intros a x y. apply grows_add_name. }
  cbn [rbind] in H.
  set (p1 := set_files (p_file_names p ++ [(fl_name f, i)]) (p_files p ++ [FileI sy f [] []]) p) in *.
  assert (exists news, p' = set_names (news ++ p_names p1) p1 /\
    Forall (fun nd => d_kind (snd nd) = DPackage /\ d_file (snd nd) = i /\ In (fst nd) (pkg_prefixes f)) news /\
    (NoDup (map fst (p_names p1)) -> NoDup (map fst (p_names p'))) /\
    (forall n, In n (pkg_prefixes f) -> exists d, In (n, d) (p_names p') /\ d_kind d = DPackage)) as K.
  { assert (on_pool (fun p2 => set_files (p_file_names p2) (p_files p2 ++ [FileI sy f [] []]) p2)
              (on_pool (fun p2 => set_files (assoc_put (fl_name f) i (p_file_names p2)) (p_files p2) p2) (V p []))
            = V p1 []) as Ev.
    { unfold on_pool. cbn. rewrite assoc_put_new by exact Fn. reflexivity. }
    unfold on_pool in Ev at 2. cbn [v_pool v_errs] in Ev. 
    unfold on_pool in H. cbn [v_pool v_errs] in H. unfold on_pool in Ev. cbn [v_pool v_errs] in Ev.
    rewrite Ev in H. unfold pkg_prefixes.
    destruct (fl_package f) as [|c pkg].
    - inversion H; subst. exists []. cbn. split; [destruct p; reflexivity|].
      split; [constructor|]. split; [auto|intros n []].
    - apply (add_pkgs_quiet i (path ++ [2%Z]) (before_dots [] (c :: pkg) ++ [c :: pkg])).
      apply rbind_ok in H. destruct H as [v3 [H3 H]].
      assert (forall l1 l2 (s : vst), fold_res (fun pre => add_name i pre (path ++ [2%Z]) DPackage) (l1 ++ l2) s
        = let! s' := fold_res (fun pre => add_name i pre (path ++ [2%Z]) DPackage) l1 s in
          fold_res (fun pre => add_name i pre (path ++ [2%Z]) DPackage) l2 s') as FA.
      { clear. induction l1 as [|a l1 IH]; intros l2 s; [reflexivity|]. cbn [app fold_res].
        destruct (add_name i a (path ++ [2%Z]) DPackage s); cbn; auto. }
      rewrite FA, H3. cbn [rbind fold_res]. rewrite H. reflexivity. }
  destruct K as [news [-> [K1 [K2 K3]]]].
  constructor; cbn [p_names p_files p_file_names p_messages p_enums p_exts p_services set_names p1 set_files]; auto.
  - destruct A as [D1 N1 P1 P2 O1]. constructor.
    + rewrite filter_app, filter_none.
      * cbn [app]. rewrite flat_map_snoc. cbn [ev_defs]. rewrite app_nil_r. exact D1.
      * intros nd Hi. rewrite Forall_forall in K1. unfold nonpkg. rewrite (proj1 (K1 _ Hi)). reflexivity.
    + intros H0. apply K2. apply N1. exact H0.
    + intros n d Hi Hk. apply in_app_or in Hi. destruct Hi as [Hi|Hi].
      * right. rewrite Forall_forall in K1. specialize (K1 _ Hi). cbn in K1. destruct K1 as [_ [Q1 Q2]].
        exists path, i, f. split; [apply in_snoc; right; reflexivity|]. auto.
      * destruct (P1 _ _ Hi Hk) as [Q|[pa [i' [f' [Q1 Q2]]]]]; [left; exact Q|right].
        exists pa, i', f'. split; [apply in_snoc; left; exact Q1|exact Q2].
    + intros pa i' f' n Hi Hn. apply in_snoc in Hi. destruct Hi as [Hi|Hi].
      * destruct (P2 _ _ _ _ Hi Hn) as [d [Q1 Q2]]. exists d. split; [apply in_or_app; right; exact Q1|exact Q2].
      * inversion Hi; subst. apply K3. exact Hn.
    + intros nd Hi. apply in_or_app. right. apply O1. exact Hi.
  - destruct B as [L Fl Nm Nd]. constructor.
    + rewrite adv_snoc, app_length, L. cbn. lia.
    + intros pa i' f' Hi. apply in_snoc in Hi. destruct Hi as [Hi|Hi].
      * destruct (Fl _ _ _ Hi) as [sy' [Q1 Q2]]. exists sy'. split; [exact Q1|].
        rewrite nth_app_l; [exact Q2|]. apply nth_error_Some. congruence.
      * inversion Hi; subst. exists sy. split; [exact Sy|]. apply nth_app_new.
    + rewrite Nm, flat_map_snoc, app_assoc. reflexivity.
    + intros H0. rewrite map_app. cbn [map fst]. apply NoDup_rev in Nd; [|exact H0].
      rewrite <- (rev_involutive (map fst (p_file_names p) ++ [fl_name f])). apply NoDup_rev.
      rewrite rev_app_distr. cbn. constructor; [|exact Nd].
      intros Hi. apply in_rev in Hi. apply assoc_s_None in Fn. exact (Fn Hi).
  - eapply NM_skip; [exact Hs|exact C| | | |]; try reflexivity; try discriminate.
    intros g Hg. apply nth_app_l. rewrite (ni_nfiles _ _ _ _ _ B). exact Hg.
  - eapply NE_skip; [exact Hs|exact D| | | |]; try reflexivity; try discriminate.
    intros g Hg. apply nth_app_l. rewrite (ni_nfiles _ _ _ _ _ B). exact Hg.
Qed.

Lemma names_NI o p0 done e rest pa pb :
  scoped o (done ++ e :: rest) -> NI o p0 done pa ->
  names_step e (V pa []) = Ok (V pb []) -> NI o p0 (done ++ [e]) pb.
Proof.
  intros Hs HN H. apply adv1_scoped_app in Hs. destruct Hs as [Hs He].
  destruct e; cbn [names_step] in H;
    try (apply add_def_quiet in H; [|reflexivity]; destruct H as [Ha ->];
         eapply NI_def; eauto; try reflexivity; try discriminate; intros; reflexivity).
  - exact (names_file_NI _ _ _ _ _ _ _ _ Hs HN H).
  - (* message *)
    unfold names_message in H. apply rbind_ok in H. destruct H as [[p1 es] [H1 H]].
    apply rbind_ok in H. destruct H as [v2 [H2 H]]. apply assert_ok in H2. destruct H2 as [-> Hlen].
    cbn [v_pool on_pool v_errs] in *. apply Nat.eqb_eq in Hlen.
    apply rbind_ok in H. destruct H as [fi [H3 H]]. apply at_ok in H3. cbn [set_messages p_files] in H3.
    assert (es = []) as ->.
    { destruct (fi_syntax fi); [inversion H; reflexivity|].
      exact (grows_quiet _ _ (grows_camel _ _ _ _ _ _ H) eq_refl). }
    apply add_def_quiet in H1; [|reflexivity]. destruct H1 as [Ha ->].
    cbn [set_names p_messages p_files p_names] in *.
    assert (pb = set_messages (p_messages pa ++ [MessageI (mk_id file path full (dp_name m)) parent [] [] [] [] [] [] (dp_map_entry m)])
                  (set_names ((full, Def file (path ++ [1%Z]) (DMessage index)) :: p_names pa) pa)) as Epb.
    { destruct (fi_syntax fi); [inversion H; reflexivity|].
      apply check_camel_pool in H. cbn in H. exact H. }
    destruct HN as [A B C D E F].
    rewrite Epb. constructor; cbn [p_names p_files p_file_names p_messages p_enums p_exts p_services set_names set_messages]; auto.
    + eapply NN_add; eauto; try reflexivity; discriminate.
    + apply NF_skip; [exact B|discriminate].
    + destruct C as [L M]. cbn in He. destruct He as [He1 [He2 He3]]. constructor.
      * rewrite app_length, L, adv_snoc. cbn. lia.
      * intros path' full' f' parent' i' m' Hi. unfold names_msg. rewrite kids_snoc_head by reflexivity.
        apply in_snoc in Hi. destruct Hi as [Hi|Hi].
        -- destruct (M _ _ _ _ _ _ Hi) as [Q1 Q2]. split; [|exact Q2].
           rewrite nth_app_l; [exact Q1|]. apply nth_error_Some. congruence.
        -- inversion Hi; subst path' full' f' parent' i' m'. rewrite (kids_fresh o) by (cbn; try exact Hs; lia).
           cbn [map]. split.
           ++ rewrite <- Hlen. apply nth_app_new.
           ++ unfold syntax_at. rewrite H3. cbn [option_map]. intros Sy.
              destruct (fi_syntax fi); [discriminate|]. destruct pb as [? ? ? ? ? ? ?].
              apply camel_quiet in H; [|constructor]. rewrite app_nil_r in H. apply NoDup_rev in H.
              rewrite rev_involutive in H. exact H.
    + eapply NE_skip; [exact Hs|exact D| | | |]; try reflexivity; try discriminate. apply same_upto_refl.
  - (* oneof *)
    unfold names_oneof in H. apply rbind_ok in H. destruct H as [[p1 es] [H1 H]].
    apply rbind_ok in H. destruct H as [m [H2 H]]. apply rbind_ok in H. destruct H as [v2 [H3 H]].
    apply assert_ok in H3. destruct H3 as [-> Hlen]. cbn [on_pool v_pool v_errs] in H.
    assert (es = []) as -> by (inversion H; reflexivity).
    apply add_def_quiet in H1; [|reflexivity]. destruct H1 as [Ha ->].
    inversion H as [Epb]. clear H. destruct HN as [A B C D E F].
    constructor; cbn [p_names p_files p_file_names p_messages p_enums p_exts p_services set_names set_messages]; auto.
    + eapply NN_add; eauto; try reflexivity; discriminate.
    + apply NF_skip; [exact B|discriminate].
    + destruct C as [L M]. constructor.
      * rewrite upd_length, L, adv_snoc. reflexivity.
      * intros path' full' f' parent' i' m' Hi. apply in_snoc in Hi.
        destruct Hi as [Hi|Hi]; [|discriminate]. destruct (M _ _ _ _ _ _ Hi) as [Q1 Q2]. split; [|exact Q2].
        rewrite nth_upd, Q1. unfold names_msg. rewrite kids_snoc. unfold owned. cbn [owner].
        rewrite Nat.eqb_refl, (Nat.eqb_sym i'). cbn [andb].
        destruct (message =? i')%nat eqn:Em; [|rewrite app_nil_r; reflexivity].
        rewrite map_app. reflexivity.
    + eapply NE_skip; [exact Hs|exact D| | | |]; try reflexivity; try discriminate. apply same_upto_refl.
  - (* enum *)
    unfold names_enum in H. apply rbind_ok in H. destruct H as [[p1 es] [H1 H]].
    apply rbind_ok in H. destruct H as [v2 [H2 H]]. apply rbind_ok in H. destruct H as [v3 [H3 H]].
    apply assert_ok in H3. destruct H3 as [-> Hlen]. apply Nat.eqb_eq in Hlen.
    assert (v_errs v2 = []) as Ev2 by (apply Ok_inj in H; apply (f_equal v_errs) in H; exact H).
    assert (v2 = V p1 es /\ ep_values e <> [] /\
            (syntax_at (p_files p1) file = Some Proto3 -> exists v vs, ep_values e = v :: vs /\ snd v = 0%Z)) as [-> [Hne Hz]].
    { destruct (ep_values e) as [|x xs]; [exfalso; exact (push_not_quiet _ _ _ _ H2 Ev2)|].
      apply rbind_ok in H2. destruct H2 as [fi [Q H2]]. apply at_ok in Q. cbn [v_pool] in Q.
      unfold syntax_at. rewrite Q. cbn [option_map]. destruct (fi_syntax fi).
      - apply Ok_inj in H2. subst. split; [reflexivity|]. split; discriminate.
      - destruct (snd x =? 0)%Z eqn:Ez; [|exfalso; exact (push_not_quiet _ _ _ _ H2 Ev2)].
        apply Ok_inj in H2. subst. split; [reflexivity|]. split; [discriminate|]. intros _.
        exists x, xs. split; [reflexivity|]. apply Z.eqb_eq. exact Ez. }
    cbn [v_errs] in Ev2. subst es.
    apply add_def_quiet in H1; [|reflexivity]. destruct H1 as [Ha ->].
    inversion H as [Epb]. clear H. destruct HN as [A B C D E F].
    constructor; cbn [p_names p_files p_file_names p_messages p_enums p_exts p_services set_names set_enums v_pool] in *; auto.
    + eapply NN_add; eauto; try reflexivity; discriminate.
    + apply NF_skip; [exact B|discriminate].
    + eapply NM_skip; [exact Hs|exact C| | | |]; try reflexivity; try discriminate. apply same_upto_refl.
    + destruct D as [L M]. cbn in He. destruct He as [He1 [He2 He3]]. constructor.
      * rewrite app_length, L, adv_snoc. cbn. lia.
      * intros path' full' f' parent' i' m' Hi. unfold names_enum_inner. rewrite kids_snoc_head by reflexivity.
        apply in_snoc in Hi. destruct Hi as [Hi|Hi].
        -- destruct (M _ _ _ _ _ _ Hi) as [Q1 [Q2 Q3]]. split; [|split; [exact Q2|exact Q3]].
           rewrite nth_app_l; [exact Q1|]. apply nth_error_Some. congruence.
        -- inversion Hi; subst path' full' f' parent' i' m'. rewrite (kids_fresh o) by (cbn; try exact Hs; lia).
           cbn [map]. split; [|split; [exact Hne|exact Hz]].
           rewrite <- Hlen. apply nth_app_new.
  - (* enum value *)
    unfold names_enum_value in H. apply rbind_ok in H. destruct H as [[p1 es] [H1 H]].
    apply rbind_ok in H. destruct H as [m [H2 H]]. apply rbind_ok in H. destruct H as [v2 [H3 H]].
    apply assert_ok in H3. destruct H3 as [-> Hlen]. cbn [on_pool v_pool v_errs] in H.
    assert (es = []) as -> by (inversion H; reflexivity).
    apply add_def_quiet in H1; [|reflexivity]. destruct H1 as [Ha ->].
    inversion H as [Epb]. clear H. destruct HN as [A B C D E F].
    constructor; cbn [p_names p_files p_file_names p_messages p_enums p_exts p_services set_names set_enums]; auto.
    + eapply NN_add; eauto; try reflexivity; discriminate.
    + apply NF_skip; [exact B|discriminate].
    + eapply NM_skip; [exact Hs|exact C| | | |]; try reflexivity; try discriminate. apply same_upto_refl.
    + destruct D as [L M]. constructor.
      * rewrite upd_length, L, adv_snoc. reflexivity.
      * intros path' full' f' parent' i' m' Hi. apply in_snoc in Hi.
        destruct Hi as [Hi|Hi]; [|discriminate]. destruct (M _ _ _ _ _ _ Hi) as [Q1 Q2]. split; [|exact Q2].
        rewrite nth_upd, Q1. unfold names_enum_inner. rewrite kids_snoc. unfold owned. cbn [owner].
        rewrite Nat.eqb_refl, (Nat.eqb_sym i'). cbn [andb].
        destruct (enum =? i')%nat eqn:Em; [|rewrite app_nil_r; reflexivity].
        rewrite map_app. reflexivity.
Qed.

Lemma NI_init p0 : NI (offsets_of p0) p0 [] p0.
Proof.
  constructor; try reflexivity.
  - constructor; cbn; auto; try (intros; contradiction).
  - constructor; cbn; auto; try (intros; contradiction). rewrite app_nil_r. reflexivity.
  - constructor; cbn; auto. intros; contradiction.
  - constructor; cbn; auto. intros; contradiction.
Qed.

Theorem names_phase p0 fs p :
  fold_res names_step (visit (offsets_of p0) fs) (V p0 []) = Ok (V p []) ->
  NI (offsets_of p0) p0 (visit (offsets_of p0) fs) p.
Proof.
  apply (quiet_fold names_step (NI (offsets_of p0) p0)).
  - exact grows_names.
  - apply NI_init.
  - intros done e rest pa pb E. apply names_NI with (rest := rest). rewrite <- E. apply visit_scoped.
Qed.
