(** Where definitions are, in terms of paths, and the descriptor protos found
    there. *)
From Verif Require Import Base BaseProofs Value Descr Proto Build VisitProofs EventProofs BuildFrame BuildNames BuildQuiet BuildResolve BuildInv DeclSpec DeclProofs PoolFacts WalkOnce RawSpec RawWalk Nav.
From Coq Require Import List Lia ZArith NArith.
Import ListNotations.
Local Open Scope list_scope.

(** ** The parent in an event is the definition at the path before the last step *)

Definition above (fi : nat) (evs : list event) (par : option nat) (q : list Z) : Prop :=
  match par with
  | None => q = []
  | Some i => exists full par' m, In (EvMessage q full fi par' i m) evs
  end.
Definition nested (evs : list event) (e : event) : Prop :=
  match e with
  | EvMessage path _ fi par _ _ | EvEnum path _ fi par _ _ | EvExt path _ fi par _ _ =>
      exists q t n, path = q ++ [t; zn n] /\ above fi evs par q
  | EvField path _ fi i n _ => exists q, path = q ++ [2%Z; zn n] /\ above fi evs (Some i) q
  | EvOneof path _ fi i n _ => exists q, path = q ++ [8%Z; zn n] /\ above fi evs (Some i) q
  | EvEnumValue path _ fi i n _ => exists q full par en, path = q ++ [2%Z; zn n] /\ In (EvEnum q full fi par i en) evs
  | EvMethod path _ fi i n _ => exists q full s, path = q ++ [2%Z; zn n] /\ In (EvService q full fi i s) evs
  | EvService path _ fi _ _ => exists q t n, path = q ++ [t; zn n] /\ above fi evs None q
  | _ => True
  end.
Lemma nested_mono evs evs' e : incl evs evs' -> nested evs e -> nested evs' e.
Proof.
  intros H. assert (forall fi par q, above fi evs par q -> above fi evs' par q) as A.
  { intros fi [i|] q; cbn; [|auto]. intros (full & par & m & Q). exists full, par, m. auto. }
  destruct e; cbn [nested]; auto.
  all: try (intros (q & t & n & E & Q); exists q, t, n; split; [exact E|apply A; exact Q]).
  all: try (intros (q & E & Q); exists q; split; [exact E|]; first [apply (A _ (Some message)); exact Q|apply (A _ (Some _)); exact Q]).
  - intros (q & full' & s & E & Q). exists q, full', s. auto.
  - intros (q & full' & par & en & E & Q). exists q, full', par, en. auto.
Qed.
Lemma enum_nested fi evs parent q t n scope oe e : above fi evs parent q ->
  incl (g_enum fi parent (q ++ [t; zn n]) scope oe e) evs -> Forall (nested evs) (g_enum fi parent (q ++ [t; zn n]) scope oe e).
Proof.
  intros Hw Hi. unfold g_enum. constructor.
  - cbn. exists q, t, n. auto.
  - unfold g_values. apply Forall_mapi. intros k a Hk. cbn [nested]. exists (q ++ [t; zn n]), (join_scope scope (ep_name e)), parent, e.
    split; [reflexivity|]. apply Hi. left. reflexivity.
Qed.
Lemma enums_nested fi evs parent q t scope : forall es j oe, above fi evs parent q ->
  incl (g_enums fi parent q t scope j oe es) evs -> Forall (nested evs) (g_enums fi parent q t scope j oe es).
Proof.
  induction es as [|e es IH]; intros j oe Hw Hi; [constructor|].
  rewrite g_enums_cons in *. apply incl_app_l in Hi. destruct Hi as [H1 H2]. apply Forall_app. split.
  - apply enum_nested; auto.
  - apply IH; auto.
Qed.
Lemma exts_nested fi evs parent q t scope ox xs : above fi evs parent q ->
  Forall (nested evs) (g_exts fi parent q t scope ox xs).
Proof. intros Hw. unfold g_exts. apply Forall_mapi. intros n a Hn. cbn. exists q, t, n. auto. Qed.
Lemma message_nested fi evs m : forall parent q t n scope om oe ox, above fi evs parent q ->
  incl (g_message fi parent (q ++ [t; zn n]) scope om oe ox m) evs ->
  Forall (nested evs) (g_message fi parent (q ++ [t; zn n]) scope om oe ox m).
Proof.
  induction m as [name fields exts nested0 enums rs os me rv IH] using dproto_ind'.
  intros parent q t n scope om oe ox Hw Hi. cbn [g_message] in *.
  set (full := join_scope scope name) in *. set (m := DP name fields exts nested0 enums rs os me rv) in *.
  set (path := q ++ [t; zn n]) in *.
  assert (In (EvMessage path full fi parent om m) evs) as Hin by (apply Hi; left; reflexivity).
  assert (above fi evs (Some om) path) as Hw' by (cbn; eauto).
  match type of Hi with incl (_ :: ?r) _ => assert (incl r evs) as Hi2 by (intros x Hx; apply Hi; right; exact Hx) end.
  apply incl_app_l in Hi2. destruct Hi2 as [_ Hi2]. apply incl_app_l in Hi2. destruct Hi2 as [_ Hi2].
  apply incl_app_l in Hi2. destruct Hi2 as [Hn Hi2]. apply incl_app_l in Hi2. destruct Hi2 as [He _].
  constructor; [|apply Forall_app; split; [|apply Forall_app; split; [|apply Forall_app; split; [|apply Forall_app; split]]]].
  - cbn. exists q, t, n. auto.
  - unfold g_oneofs. apply Forall_mapi. intros k a Hk. exists path. split; [reflexivity|exact Hw'].
  - unfold g_fields. apply Forall_mapi. intros k a Hk. exists path. split; [reflexivity|exact Hw'].
  - apply (g_list_ok _ evs); [exact Hn|]. intros k x om' oe' ox' Hk Hincl. cbn [plus] in *.
    rewrite Forall_forall in IH. apply IH; [eapply nth_error_In; exact Hk|exact Hw'|exact Hincl].
  - apply enums_nested; assumption.
  - apply exts_nested; assumption.
Qed.
Lemma file_nested o f : Forall (nested (g_file o f)) (g_file o f).
Proof.
  set (evs := g_file o f) at 1. assert (incl (g_file o f) evs) as Hi by (apply incl_refl). clearbody evs. revert Hi.
  unfold g_file. intros Hi.
  match type of Hi with incl (_ :: ?r) _ => assert (incl r evs) as Hi2 by (intros x Hx; apply Hi; right; exact Hx) end.
  apply incl_app_l in Hi2. destruct Hi2 as [Hm Hi2]. apply incl_app_l in Hi2. destruct Hi2 as [He Hi2].
  apply incl_app_l in Hi2. destruct Hi2 as [Hs _].
  constructor; [exact I|]. apply Forall_app; split; [|apply Forall_app; split; [|apply Forall_app; split]].
  - unfold g_messages in *. apply (g_list_ok _ evs); [exact Hm|]. intros n m om oe ox Hn Hincl.
    apply message_nested; [reflexivity|exact Hincl].
  - apply enums_nested; [reflexivity|exact He].
  - clear - Hs. revert Hs. generalize (of_service o) as os. generalize 0%nat as j.
    induction (fl_services f) as [|s ss IH]; intros j os Hincl; [constructor|]. rewrite g_services_cons in *.
    apply incl_app_l in Hincl. destruct Hincl as [H1 H2]. apply Forall_app. split; [|apply IH; exact H2].
    unfold g_service in *. constructor; [exists [], 6%Z, j; split; reflexivity|]. unfold g_methods. apply Forall_mapi. intros n a Hn. cbn [nested].
    exists [6%Z; zn j], (join_scope (fl_package f) (sp_name s)), s. split; [reflexivity|]. apply H1. left. reflexivity.
  - apply exts_nested. reflexivity.
Qed.
Lemma visit_nested fs : forall o e, In e (visit o fs) -> nested (visit o fs) e.
Proof.
  intros o. rewrite visit_eq. revert o. induction fs as [|f fs IH]; intros o e He; cbn [g_files] in *; [destruct He|].
  apply in_app_or in He. destruct He as [He|He].
  - pose proof (file_nested o f) as Q. rewrite Forall_forall in Q. eapply nested_mono; [|exact (Q _ He)]. apply incl_appl, incl_refl.
  - eapply nested_mono; [|exact (IH _ _ He)]. apply incl_appr, incl_refl.
Qed.

(** ** What is found at a path *)

Lemma message_found f path scope m : message_at f path scope m -> placed f path m.
Proof. induction 1; [apply placed_top; assumption|eapply placed_nested; eassumption]. Qed.
Lemma message_path f path scope m : message_at f path scope m -> (2 <= length path)%nat.
Proof. induction 1; [cbn; lia|rewrite app_length; cbn; lia]. Qed.

(** the same place in the copy of a file *)
Lemma alike_nth {A B} (g : A -> B) l l' n a : map g l = map g l' -> nth_error l n = Some a ->
  exists a', nth_error l' n = Some a' /\ g a = g a'.
Proof.
  intros E H. pose proof (nth_error_map g n l) as Q. rewrite E, nth_error_map, H in Q. cbn in Q.
  destruct (nth_error l' n) as [a'|]; [|discriminate]. cbn in Q. exists a'. split; [reflexivity|]. congruence.
Qed.
Lemma blank_file_parts f f' : blank_file f = blank_file f' ->
  fl_package f = fl_package f' /\ map blank_message (fl_messages f) = map blank_message (fl_messages f') /\ fl_enums f = fl_enums f' /\
  map blank_service (fl_services f) = map blank_service (fl_services f') /\ map blank_field (fl_exts f) = map blank_field (fl_exts f').
Proof. destruct f, f'. intros E. cbn in E. injection E. cbn. intros. auto 10. Qed.
Lemma blank_message_parts m m' : blank_message m = blank_message m' ->
  dp_name m = dp_name m' /\ map blank_field (dp_fields m) = map blank_field (dp_fields m') /\
  map blank_field (dp_exts m) = map blank_field (dp_exts m') /\ map blank_message (dp_nested m) = map blank_message (dp_nested m') /\
  dp_enums m = dp_enums m' /\ dp_oneofs m = dp_oneofs m'.
Proof. destruct m, m'. intros E. cbn in E. injection E. cbn. intros. auto 10. Qed.
Lemma message_copy f f' path scope m : blank_file f = blank_file f' -> message_at f path scope m ->
  exists m', message_at f' path scope m' /\ blank_message m = blank_message m'.
Proof.
  intros E. destruct (blank_file_parts _ _ E) as (Ep & Em & _). induction 1 as [j m H|path scope m j n _ (m' & A & B) H].
  - rewrite Ep. destruct (alike_nth _ _ _ _ _ Em H) as (m' & H' & B). exists m'. split; [constructor; exact H'|exact B].
  - destruct (blank_message_parts _ _ B) as (En & _ & _ & Ec & _). destruct (alike_nth _ _ _ _ _ Ec H) as (n' & H' & B').
    exists n'. rewrite En. split; [eapply ma_nested; eassumption|exact B'].
Qed.
Lemma enum_copy f f' path scope e : blank_file f = blank_file f' -> enum_at f path scope e -> enum_at f' path scope e.
Proof.
  intros E. destruct (blank_file_parts _ _ E) as (Ep & _ & Ee & _). intros [j e' H|path' scope' m j e' M H].
  - rewrite Ep. constructor. rewrite <- Ee. exact H.
  - destruct (message_copy _ _ _ _ _ E M) as (m' & M' & B). destruct (blank_message_parts _ _ B) as (En & _ & _ & _ & Ec & _).
    rewrite En. eapply ea_nested; [exact M'|]. rewrite <- Ec. exact H.
Qed.

(** [element] finds what is declared *)
Lemma last_two (q : list Z) t i : rev (q ++ [t; i]) = i :: t :: rev q.
Proof. rewrite rev_app_distr. reflexivity. Qed.
Lemma element_top {A} top inner (F : file -> list A) G f n a : nth_error (F f) n = Some a -> element top inner F G f [top; pos n] = Ok a.
Proof. intros H. cbn. rewrite Z.eqb_refl. unfold index, pos. rewrite Nat2Z.id, H. reflexivity. Qed.
Lemma element_inner {A} top inner (F : file -> list A) G f path scope m n a : message_at f path scope m ->
  nth_error (G m) n = Some a -> element top inner F G f (path ++ [inner; pos n]) = Ok a.
Proof.
  intros M H. pose proof (message_path _ _ _ _ M) as L. unfold element.
  rewrite last_two, firstn_last2. destruct path as [|a1 [|a2 r]]; try (cbn in L; lia). cbn [app].
  destruct (message_found _ _ _ _ M) as [P _]. unfold find_message_proto. 
  assert (find_msg f None (a1 :: a2 :: r) = Some m) as -> by exact P.
  cbn [need rbind]. rewrite Z.eqb_refl. unfold index, pos. rewrite Nat2Z.id, H. destruct r; reflexivity.
Qed.
