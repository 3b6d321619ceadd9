(** The walk over a file visits exactly what the file declares. *)
From Verif Require Import Base Value Descr Proto Build VisitProofs EventProofs BuildFrame BuildNames BuildQuiet BuildResolve BuildInv DeclSpec.

Lemma dotted_join s n : dotted s n = join_scope s n.
Proof. destruct s; reflexivity. Qed.

Definition ev_item (e : event) : option item :=
  match e with
  | EvFile _ _ _ => None
  | EvMessage _ _ _ _ _ m => Some (IMessage m)
  | EvField _ _ _ _ _ x => Some (IField x)
  | EvOneof _ _ _ _ _ x => Some (IOneof x)
  | EvService _ _ _ _ x => Some (IService x)
  | EvMethod _ _ _ _ _ x => Some (IMethod x)
  | EvEnum _ _ _ _ _ x => Some (IEnum x)
  | EvEnumValue _ _ _ _ _ x => Some (IValue x)
  | EvExt _ _ _ _ _ x => Some (IExt x)
  end.
Definition ev_path (e : event) : list Z :=
  match e with
  | EvFile p _ _ | EvMessage p _ _ _ _ _ | EvField p _ _ _ _ _ | EvOneof p _ _ _ _ _ | EvService p _ _ _ _
  | EvMethod p _ _ _ _ _ | EvEnum p _ _ _ _ _ | EvEnumValue p _ _ _ _ _ | EvExt p _ _ _ _ _ => p
  end.
Definition ev_full (e : event) : str :=
  match e with
  | EvFile _ _ _ => []
  | EvMessage _ n _ _ _ _ | EvField _ n _ _ _ _ | EvOneof _ n _ _ _ _ | EvService _ n _ _ _
  | EvMethod _ n _ _ _ _ | EvEnum _ n _ _ _ _ | EvEnumValue _ n _ _ _ _ | EvExt _ n _ _ _ _ => n
  end.

(** the item around an item *)
Definition within (f : file) (fi : nat) (evs : list event) (parent : option nat) (scope : str) : Prop :=
  match parent with
  | None => scope = fl_package f
  | Some j => exists path par m, In (EvMessage path scope fi par j m) evs
  end.
Definition ev_ok (f : file) (fi : nat) (evs : list event) (e : event) : Prop :=
  ev_file_of e = fi /\
  match ev_item e with
  | None => e = EvFile [] fi f
  | Some it =>
      exists scope, declares f (ev_path e) scope it /\ ev_full e = dotted scope (item_name it) /\
      match e with
      | EvMessage _ _ _ parent _ _ | EvEnum _ _ _ parent _ _ | EvExt _ _ _ parent _ _ => within f fi evs parent scope
      | EvField _ _ _ j _ _ | EvOneof _ _ _ j _ _ => within f fi evs (Some j) scope
      | EvMethod _ _ _ j _ _ => exists path s, In (EvService path scope fi j s) evs
      | EvEnumValue _ _ _ j _ _ => exists path par en, In (EvEnum path (dotted scope (ep_name en)) fi par j en) evs
      | _ => True
      end
  end.
Lemma within_mono f fi evs evs' parent scope : incl evs evs' -> within f fi evs parent scope -> within f fi evs' parent scope.
Proof. intros H. destruct parent; cbn; [|auto]. intros [p [q [m Hi]]]. eauto 6. Qed.
Lemma ev_ok_mono f fi evs evs' e : incl evs evs' -> ev_ok f fi evs e -> ev_ok f fi evs' e.
Proof.
  intros H [A B]. split; [exact A|]. destruct (ev_item e) as [it|]; [|exact B].
  destruct B as [scope [B [C D]]]. exists scope. split; [exact B|]. split; [exact C|].
  destruct e; auto; try (eapply within_mono; eassumption).
  - destruct D as [p [s Hi]]. eauto.
  - destruct D as [p [q [s Hi]]]. eauto 6.
Qed.

Lemma incl_app_l {A} (a b c : list A) : incl (a ++ b) c -> incl a c /\ incl b c.
Proof. intros H. split; intros x Hx; apply H, in_or_app; auto. Qed.
Lemma Forall_mapi {A B} (P : B -> Prop) (g : nat -> A -> B) l i :
  (forall n a, nth_error l n = Some a -> P (g (i + n)%nat a)) -> Forall P (mapi i g l).
Proof.
  intros H. apply Forall_forall. intros b Hb. apply mapi_in_nth in Hb. destruct Hb as [n [a [-> Hn]]]. auto.
Qed.

Lemma g_enum_ok f fi evs parent path scope oe e :
  enum_at f path scope e -> within f fi evs parent scope -> incl (g_enum fi parent path scope oe e) evs ->
  Forall (ev_ok f fi evs) (g_enum fi parent path scope oe e).
Proof.
  intros He Hw Hi. unfold g_enum. constructor.
  - split; [reflexivity|]. cbn. exists scope. split; [constructor; exact He|]. split; [symmetry; apply dotted_join|exact Hw].
  - unfold g_values. apply Forall_mapi. intros n a Hn. split; [reflexivity|]. cbn. exists scope.
    split; [eapply de_value; eassumption|]. split; [symmetry; apply dotted_join|].
    exists path, parent, e. rewrite dotted_join. apply Hi. left. reflexivity.
Qed.
Lemma g_enums_ok f fi evs parent path tag scope : forall es j oe,
  (forall n e, nth_error es n = Some e -> enum_at f (path ++ [tag; zn (j + n)]) scope e) ->
  within f fi evs parent scope -> incl (g_enums fi parent path tag scope j oe es) evs ->
  Forall (ev_ok f fi evs) (g_enums fi parent path tag scope j oe es).
Proof.
  induction es as [|e es IH]; intros j oe He Hw Hi; [constructor|].
  rewrite g_enums_cons in *. apply incl_app_l in Hi. destruct Hi as [H1 H2]. apply Forall_app. split.
  - apply g_enum_ok; auto. specialize (He O e eq_refl). rewrite Nat.add_0_r in He. exact He.
  - apply IH; auto. intros n x Hn. specialize (He (S n) x Hn). rewrite <- plus_n_Sm in He. exact He.
Qed.
Lemma g_list_ok (P : event -> Prop) evs (g : nat -> nat -> nat -> nat -> dproto -> list event) ns : forall j om oe ox,
  incl (g_list g j om oe ox ns) evs ->
  (forall n m om oe ox, nth_error ns n = Some m -> incl (g (j + n)%nat om oe ox m) evs -> Forall P (g (j + n)%nat om oe ox m)) ->
  Forall P (g_list g j om oe ox ns).
Proof.
  induction ns as [|m ns IH]; intros j om oe ox Hi H; cbn [g_list] in *; [constructor|].
  apply incl_app_l in Hi. destruct Hi as [H1 H2]. apply Forall_app. split.
  - specialize (H O m om oe ox eq_refl). rewrite Nat.add_0_r in H. auto.
  - apply IH; [exact H2|]. intros n x om' oe' ox' Hn. specialize (H (S n) x om' oe' ox' Hn).
    rewrite <- plus_n_Sm in H. exact H.
Qed.
Lemma g_exts_ok f fi evs parent path tag scope ox xs :
  (forall n e, nth_error xs n = Some e -> declares f (path ++ [tag; zn n]) scope (IExt e)) ->
  within f fi evs parent scope -> Forall (ev_ok f fi evs) (g_exts fi parent path tag scope ox xs).
Proof.
  intros He Hw. unfold g_exts. apply Forall_mapi. intros n a Hn. split; [reflexivity|]. cbn. exists scope.
  split; [apply He; exact Hn|]. split; [symmetry; apply dotted_join|exact Hw].
Qed.

Lemma g_message_ok f fi evs m : forall parent path scope om oe ox,
  message_at f path scope m -> within f fi evs parent scope ->
  incl (g_message fi parent path scope om oe ox m) evs ->
  Forall (ev_ok f fi evs) (g_message fi parent path scope om oe ox m).
Proof.
  induction m as [name fields exts nested enums rs os me rv IH] using dproto_ind'.
  intros parent path scope om oe ox Hm Hw Hi. cbn [g_message] in *.
  set (full := join_scope scope name) in *. set (m := DP name fields exts nested enums rs os me rv) in *.
  assert (In (EvMessage path full fi parent om m) evs) as Hin by (apply Hi; left; reflexivity).
  assert (within f fi evs (Some om) full) as Hw' by (cbn; eauto).
  assert (incl (g_oneofs fi om path full os ++ g_fields fi om path full fields ++
     g_list (fun j om' oe' ox' n => g_message fi (Some om) (path ++ [3%Z; zn j]) full om' oe' ox' n) 0 (S om) oe ox nested
     ++ g_enums fi (Some om) path 4 full 0 (oe + list_sum (map esize nested)) enums
     ++ g_exts fi (Some om) path 6 full (ox + list_sum (map xsize nested)) exts) evs) as Hi2
     by (intros x Hx; apply Hi; right; exact Hx).
  apply incl_app_l in Hi2. destruct Hi2 as [_ Hi2]. apply incl_app_l in Hi2. destruct Hi2 as [_ Hi2].
  apply incl_app_l in Hi2. destruct Hi2 as [Hn Hi2]. apply incl_app_l in Hi2. destruct Hi2 as [He _].
  assert (dotted scope (dp_name m) = full) as Ef by (apply dotted_join).
  constructor; [|apply Forall_app; split; [|apply Forall_app; split; [|apply Forall_app; split; [|apply Forall_app; split]]]].
  - split; [reflexivity|]. cbn. exists scope. split; [constructor; exact Hm|]. split; [symmetry; apply dotted_join|exact Hw].
  - unfold g_oneofs. apply Forall_mapi. intros n a Hna. split; [reflexivity|]. cbn [ev_item ev_path ev_full]. exists full.
    split; [rewrite <- Ef; eapply de_oneof; [exact Hm|exact Hna]|]. split; [symmetry; apply dotted_join|exact Hw'].
  - unfold g_fields. apply Forall_mapi. intros n a Hna. split; [reflexivity|]. cbn [ev_item ev_path ev_full]. exists full.
    split; [rewrite <- Ef; eapply de_field; [exact Hm|exact Hna]|]. split; [symmetry; apply dotted_join|exact Hw'].
  - apply (g_list_ok _ evs); [exact Hn|]. intros n x om' oe' ox' Hnx Hincl. cbn [plus] in *.
    rewrite Forall_forall in IH. apply IH; [eapply nth_error_In; exact Hnx| |exact Hw'|exact Hincl].
    rewrite <- Ef. eapply ma_nested; [exact Hm|exact Hnx].
  - apply g_enums_ok; [|exact Hw'|exact He]. intros n e Hne. cbn [plus]. rewrite <- Ef. eapply ea_nested; [exact Hm|exact Hne].
  - apply g_exts_ok; [|exact Hw']. intros n e Hne. rewrite <- Ef. eapply de_ext; [exact Hm|exact Hne].
Qed.

Lemma g_file_ok o f : Forall (ev_ok f (of_file o) (g_file o f)) (g_file o f).
Proof.
  set (evs := g_file o f) at 1. assert (incl (g_file o f) evs) as Hi by (apply incl_refl). clearbody evs. revert Hi.
  unfold g_file. intros Hi.
  assert (forall P : event -> Prop, (forall e, P e) -> True) as _ by auto.
  match type of Hi with incl (_ :: ?r) _ => assert (incl r evs) as Hi2 by (intros x Hx; apply Hi; right; exact Hx) end.
  apply incl_app_l in Hi2. destruct Hi2 as [Hm Hi2]. apply incl_app_l in Hi2. destruct Hi2 as [He Hi2].
  apply incl_app_l in Hi2. destruct Hi2 as [Hs _].
  constructor; [split; reflexivity|]. apply Forall_app; split; [|apply Forall_app; split; [|apply Forall_app; split]].
  - unfold g_messages in *. apply (g_list_ok _ evs); [exact Hm|]. intros n m om oe ox Hn Hincl.
    apply g_message_ok; [|reflexivity|exact Hincl]. apply ma_top. exact Hn.
  - apply g_enums_ok; [|reflexivity|exact He]. intros n e Hn. apply ea_top. exact Hn.
  - assert (forall ss j os, (forall n s, nth_error ss n = Some s -> nth_error (fl_services f) (j + n) = Some s) ->
      incl (g_services (of_file o) (fl_package f) j os ss) evs ->
      Forall (ev_ok f (of_file o) evs) (g_services (of_file o) (fl_package f) j os ss)) as Q.
    { induction ss as [|s ss IH]; intros j os Hss Hincl; [constructor|]. rewrite g_services_cons in *.
      apply incl_app_l in Hincl. destruct Hincl as [H1 H2].
      pose proof (Hss O s eq_refl) as H0. rewrite Nat.add_0_r in H0. apply Forall_app. split.
      - unfold g_service in *. constructor.
        + split; [reflexivity|]. cbn. exists (fl_package f). split; [apply de_service; exact H0|].
          split; [symmetry; apply dotted_join|exact I].
        + unfold g_methods. apply Forall_mapi. intros n a Hn. split; [reflexivity|]. cbn [ev_item ev_path ev_full].
          exists (join_scope (fl_package f) (sp_name s)).
          split; [rewrite <- dotted_join; apply (de_method f j s n a H0 Hn)|]. split; [symmetry; apply dotted_join|].
          exists [6%Z; zn j], s. apply H1. left. reflexivity.
      - apply IH; [|exact H2]. intros n x Hn. specialize (Hss (S n) x Hn). rewrite <- plus_n_Sm in Hss. exact Hss. }
    apply Q; [|exact Hs]. auto.
  - apply g_exts_ok; [|reflexivity]. intros n e Hn. apply de_ext_top. exact Hn.
Qed.

Lemma visit_ok fs : forall o e, In e (visit o fs) ->
  exists k f, nth_error fs k = Some f /\ ev_ok f (of_file o + k) (visit o fs) e.
Proof.
  intros o. rewrite visit_eq. revert o. induction fs as [|f fs IH]; intros o e He; cbn [g_files] in *; [destruct He|].
  apply in_app_or in He. destruct He as [He|He].
  - exists O, f. split; [reflexivity|]. rewrite Nat.add_0_r. pose proof (g_file_ok o f) as Q. rewrite Forall_forall in Q.
    eapply ev_ok_mono; [|exact (Q _ He)]. apply incl_appl, incl_refl.
  - destruct (IH _ _ He) as [k [f' [Hk Q]]]. exists (S k), f'. split; [exact Hk|].
    replace (of_file (off_file o f) + k)%nat with (of_file o + S k)%nat in Q by (cbn; lia). eapply ev_ok_mono; [|exact Q]. apply incl_appr, incl_refl.
Qed.

(** *** every declaration is visited *)
Lemma g_list_incl g ns : forall j om oe ox n m, nth_error ns n = Some m ->
  exists om' oe' ox', incl (g (j + n)%nat om' oe' ox' m) (g_list g j om oe ox ns).
Proof.
  induction ns as [|x ns IH]; intros j om oe ox [|n] m H; try discriminate; cbn [g_list].
  - cbn in H. apply Some_inj in H. subst x. exists om, oe, ox. rewrite Nat.add_0_r. apply incl_appl, incl_refl.
  - destruct (IH (S j) (om + msize x)%nat (oe + esize x)%nat (ox + xsize x)%nat n m H) as [a [b [c Q]]].
    exists a, b, c. rewrite <- plus_n_Sm. apply incl_appr. exact Q.
Qed.
Lemma g_enums_incl file parent path tag scope es : forall j oe n e, nth_error es n = Some e ->
  exists oe', incl (g_enum file parent (path ++ [tag; zn (j + n)]) scope oe' e) (g_enums file parent path tag scope j oe es).
Proof.
  induction es as [|x es IH]; intros j oe [|n] e H; try discriminate; rewrite g_enums_cons.
  - cbn in H. apply Some_inj in H. subst x. exists oe. rewrite Nat.add_0_r. apply incl_appl, incl_refl.
  - destruct (IH (S j) (S oe) n e H) as [a Q]. exists a. rewrite <- plus_n_Sm. apply incl_appr. exact Q.
Qed.
Lemma g_services_incl file scope es : forall j oe n e, nth_error es n = Some e ->
  exists oe', incl (g_service file [6%Z; zn (j + n)] scope oe' e) (g_services file scope j oe es).
Proof.
  induction es as [|x es IH]; intros j oe [|n] e H; try discriminate; rewrite g_services_cons.
  - cbn in H. apply Some_inj in H. subst x. exists oe. rewrite Nat.add_0_r. apply incl_appl, incl_refl.
  - destruct (IH (S j) (S oe) n e H) as [a Q]. exists a. rewrite <- plus_n_Sm. apply incl_appr. exact Q.
Qed.
Lemma mapi_incl {A B} (g : nat -> A -> B) l : forall i n a, nth_error l n = Some a -> In (g (i + n)%nat a) (mapi i g l).
Proof. intros i n a H. apply nth_error_In with n. rewrite mapi_nth, H. reflexivity. Qed.

Lemma message_visited o f path scope m : message_at f path scope m ->
  exists parent om oe ox, incl (g_message (of_file o) parent path scope om oe ox m) (g_file o f).
Proof.
  intros H. induction H as [j m H|path scope m j n H IH Hn].
  - destruct (g_list_incl (fun j om oe ox n => g_message (of_file o) None ([] ++ [4%Z; zn j]) (fl_package f) om oe ox n)
      (fl_messages f) 0 (of_msg o) (of_enum o) (of_ext o) j m H) as [a [b [c Q]]].
    exists None, a, b, c. unfold g_file. apply incl_tl, incl_appl. exact Q.
  - destruct IH as [parent [om [oe [ox IH]]]]. destruct m as [name fields exts nested enums rs os me rv].
    cbn [g_message dp_nested dp_name] in *.
    destruct (g_list_incl (fun j om' oe' ox' n => g_message (of_file o) (Some om) (path ++ [3%Z; zn j]) (join_scope scope name) om' oe' ox' n)
      nested 0 (S om) oe ox j n Hn) as [a [b [c Q]]].
    exists (Some om), a, b, c. rewrite dotted_join. eapply incl_tran; [exact Q|]. eapply incl_tran; [|exact IH].
    apply incl_tl, incl_appr, incl_appr, incl_appl, incl_refl.
Qed.
Lemma enum_visited o f path scope e : enum_at f path scope e ->
  exists parent oe, incl (g_enum (of_file o) parent path scope oe e) (g_file o f).
Proof.
  intros H. destruct H as [j e H|path scope m j e Hm H].
  - destruct (g_enums_incl (of_file o) None [] 5 (fl_package f) (fl_enums f) 0 (of_enum o + esizes (fl_messages f)) j e H) as [a Q].
    exists None, a. unfold g_file. apply incl_tl, incl_appr, incl_appl. exact Q.
  - destruct (message_visited o _ _ _ _ Hm) as [parent [om [oe [ox IH]]]].
    destruct m as [name fields exts nested enums rs os me rv]. cbn [g_message dp_enums dp_name] in *.
    destruct (g_enums_incl (of_file o) (Some om) path 4 (join_scope scope name) enums 0 (oe + list_sum (map esize nested)) j e H) as [a Q].
    exists (Some om), a. rewrite dotted_join. eapply incl_tran; [exact Q|]. eapply incl_tran; [|exact IH].
    apply incl_tl, incl_appr, incl_appr, incl_appr, incl_appl, incl_refl.
Qed.

Definition is_event (e : event) (fi : nat) (path : list Z) (full : str) (it : item) : Prop :=
  ev_file_of e = fi /\ ev_path e = path /\ ev_full e = full /\ ev_item e = Some it.

Lemma declared_visited_file o f path scope it : declares f path scope it ->
  exists e, In e (g_file o f) /\ is_event e (of_file o) path (dotted scope (item_name it)) it.
Proof.
  intros H. rewrite (dotted_join scope).
  destruct H as [path scope m H|path scope m j x H Hx|path scope m j x H Hx|path scope m j x H Hx|j x H|path scope e H|path scope e j x H Hx|j s H|j s k x H Hx].
  - destruct (message_visited o _ _ _ _ H) as [parent [om [oe [ox Q]]]]. destruct m as [name fields exts nested enums rs os me rv].
    cbn [g_message] in Q. eexists. split; [apply Q; left; reflexivity|]. repeat split.
  - destruct (message_visited o _ _ _ _ H) as [parent [om [oe [ox Q]]]]. destruct m as [name fields exts nested enums rs os me rv].
    cbn [g_message dp_fields dp_name] in *. rewrite (dotted_join scope name). eexists. split.
    { apply Q. right. apply in_or_app. right. apply in_or_app. left. unfold g_fields. apply mapi_incl. exact Hx. }
    repeat split.
  - destruct (message_visited o _ _ _ _ H) as [parent [om [oe [ox Q]]]]. destruct m as [name fields exts nested enums rs os me rv].
    cbn [g_message dp_oneofs dp_name] in *. rewrite (dotted_join scope name). eexists. split.
    { apply Q. right. apply in_or_app. left. unfold g_oneofs. apply mapi_incl. exact Hx. }
    repeat split.
  - destruct (message_visited o _ _ _ _ H) as [parent [om [oe [ox Q]]]]. destruct m as [name fields exts nested enums rs os me rv].
    cbn [g_message dp_exts dp_name] in *. rewrite (dotted_join scope name). eexists. split.
    { apply Q. right. apply in_or_app. right. apply in_or_app. right. apply in_or_app. right. apply in_or_app. right.
      unfold g_exts. apply mapi_incl. exact Hx. }
    repeat split.
  - eexists. split.
    { unfold g_file. right. apply in_or_app. right. apply in_or_app. right. apply in_or_app. right.
      unfold g_exts. apply mapi_incl. exact H. }
    repeat split.
  - destruct (enum_visited o _ _ _ _ H) as [parent [oe Q]]. eexists. split; [apply Q; left; reflexivity|]. repeat split.
  - destruct (enum_visited o _ _ _ _ H) as [parent [oe Q]]. eexists. split.
    { apply Q. right. unfold g_values. apply mapi_incl. exact Hx. }
    repeat split.
  - destruct (g_services_incl (of_file o) (fl_package f) (fl_services f) 0 (of_service o) j s H) as [a Q].
    eexists. split.
    { unfold g_file. right. apply in_or_app. right. apply in_or_app. right. apply in_or_app. left. apply Q. left. reflexivity. }
    repeat split.
  - destruct (g_services_incl (of_file o) (fl_package f) (fl_services f) 0 (of_service o) j s H) as [a Q].
    eexists. split.
    { unfold g_file. right. apply in_or_app. right. apply in_or_app. right. apply in_or_app. left. apply Q. right.
      unfold g_methods. apply mapi_incl. exact Hx. }
    rewrite (dotted_join (fl_package f) (sp_name s)). repeat split.
Qed.

Lemma declared_visited fs : forall o k f path scope it, nth_error fs k = Some f -> declares f path scope it ->
  exists e, In e (visit o fs) /\ is_event e (of_file o + k) path (dotted scope (item_name it)) it.
Proof.
  intros o. rewrite visit_eq. revert o. induction fs as [|f fs IH]; intros o [|k] f' path scope it Hk H; try discriminate; cbn [g_files].
  - cbn in Hk. apply Some_inj in Hk. subst f'. rewrite Nat.add_0_r. destruct (declared_visited_file o _ _ _ _ H) as [e [He Q]].
    exists e. split; [apply in_or_app; left; exact He|exact Q].
  - destruct (IH (off_file o f) k f' path scope it Hk H) as [e [He Q]]. exists e. split; [apply in_or_app; right; exact He|].
    replace (of_file (off_file o f) + k)%nat with (of_file o + S k)%nat in Q by (cbn; lia). exact Q.
Qed.

(** *** every index is one of an event *)
Lemma index_covered evs : forall o i, scoped o evs ->
  ((of_msg o <= i < of_msg (adv o evs))%nat -> exists path full f parent m, In (EvMessage path full f parent i m) evs) /\
  ((of_enum o <= i < of_enum (adv o evs))%nat -> exists path full f parent m, In (EvEnum path full f parent i m) evs) /\
  ((of_ext o <= i < of_ext (adv o evs))%nat -> exists path full f parent m, In (EvExt path full f parent i m) evs) /\
  ((of_service o <= i < of_service (adv o evs))%nat -> exists path full f m, In (EvService path full f i m) evs).
Proof.
  induction evs as [|e evs IH]; intros o i Hs.
  - cbn. repeat split; intros; lia.
  - cbn [scoped] in Hs. destruct Hs as [H1 Hs]. rewrite adv_cons. destruct (IH _ i Hs) as [A [B [C D]]].
    split; [|split; [|split]]; intros R.
    + destruct (Nat.eq_dec i (of_msg o)) as [-> |Hne].
      * destruct e; cbn in H1, R; try (destruct A as (? & ? & ? & ? & ? & A); [cbn; lia|]; do 5 eexists; right; exact A).
        do 5 eexists. left. f_equal. lia.
      * destruct A as (? & ? & ? & ? & ? & A); [|do 5 eexists; right; exact A].
        destruct e; cbn in *; lia.
    + destruct (Nat.eq_dec i (of_enum o)) as [-> |Hne].
      * destruct e; cbn in H1, R; try (destruct B as (? & ? & ? & ? & ? & B); [cbn; lia|]; do 5 eexists; right; exact B).
        do 5 eexists. left. f_equal. lia.
      * destruct B as (? & ? & ? & ? & ? & B); [|do 5 eexists; right; exact B].
        destruct e; cbn in *; lia.
    + destruct (Nat.eq_dec i (of_ext o)) as [-> |Hne].
      * destruct e; cbn in H1, R; try (destruct C as (? & ? & ? & ? & ? & C); [cbn; lia|]; do 5 eexists; right; exact C).
        do 5 eexists. left. f_equal. lia.
      * destruct C as (? & ? & ? & ? & ? & C); [|do 5 eexists; right; exact C].
        destruct e; cbn in *; lia.
    + destruct (Nat.eq_dec i (of_service o)) as [-> |Hne].
      * destruct e; cbn in H1, R; try (destruct D as (? & ? & ? & ? & D); [cbn; lia|]; do 4 eexists; right; exact D).
        do 4 eexists. left. f_equal. lia.
      * destruct D as (? & ? & ? & ? & D); [|do 4 eexists; right; exact D].
        destruct e; cbn in *; lia.
Qed.
