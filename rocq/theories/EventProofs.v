(** Facts about the calls a visitor gets: indices are handed out in order,
    references go to definitions already seen, the parts of a definition follow
    it in order, and paths lead back to the definition in its file. *)
From Verif Require Import Base Value Descr Proto Build VisitProofs.

(** ** Indices are handed out in order *)

Definition adv1 (o : offsets) (e : event) : offsets :=
  match e with
  | EvFile _ _ _ => Off (S (of_file o)) (of_msg o) (of_enum o) (of_service o) (of_ext o)
  | EvMessage _ _ _ _ _ _ => Off (of_file o) (S (of_msg o)) (of_enum o) (of_service o) (of_ext o)
  | EvEnum _ _ _ _ _ _ => Off (of_file o) (of_msg o) (S (of_enum o)) (of_service o) (of_ext o)
  | EvService _ _ _ _ _ => Off (of_file o) (of_msg o) (of_enum o) (S (of_service o)) (of_ext o)
  | EvExt _ _ _ _ _ _ => Off (of_file o) (of_msg o) (of_enum o) (of_service o) (S (of_ext o))
  | _ => o
  end.
Definition adv (o : offsets) (es : list event) : offsets := fold_left adv1 es o.

Definition par_ok (n : nat) (p : option nat) : Prop :=
  match p with Some i => (i < n)%nat | None => True end.
Definition scoped1 (o : offsets) (e : event) : Prop :=
  match e with
  | EvFile _ i _ => i = of_file o
  | EvMessage _ _ f p i _ => S f = of_file o /\ i = of_msg o /\ par_ok (of_msg o) p
  | EvField _ _ f m _ _ | EvOneof _ _ f m _ _ => S f = of_file o /\ (m < of_msg o)%nat
  | EvService _ _ f i _ => S f = of_file o /\ i = of_service o
  | EvMethod _ _ f s _ _ => S f = of_file o /\ (s < of_service o)%nat
  | EvEnum _ _ f p i _ => S f = of_file o /\ i = of_enum o /\ par_ok (of_msg o) p
  | EvEnumValue _ _ f e _ _ => S f = of_file o /\ (e < of_enum o)%nat
  | EvExt _ _ f p i _ => S f = of_file o /\ i = of_ext o /\ par_ok (of_msg o) p
  end.
Fixpoint scoped (o : offsets) (es : list event) : Prop :=
  match es with
  | [] => True
  | e :: r => scoped1 o e /\ scoped (adv1 o e) r
  end.

Lemma adv_cons o e l : adv o (e :: l) = adv (adv1 o e) l.
Proof. reflexivity. Qed.
Lemma adv_app o a b : adv o (a ++ b) = adv (adv o a) b.
Proof. unfold adv. apply fold_left_app. Qed.
Lemma scoped_app o a b : scoped o (a ++ b) <-> scoped o a /\ scoped (adv o a) b.
Proof.
  revert o. induction a as [|e a IH]; intros o; cbn [app scoped]; [unfold adv; cbn; tauto|].
  rewrite IH. unfold adv. cbn. tauto.
Qed.

Lemma leaf_scoped {A} (g : nat -> A -> event) (l : list A) o :
  (forall n a, scoped1 o (g n a) /\ adv1 o (g n a) = o) ->
  forall i, scoped o (mapi i g l) /\ adv o (mapi i g l) = o.
Proof.
  intros H. induction l as [|a l IH]; intros i; cbn [mapi scoped]; [split; [exact I|reflexivity]|].
  destruct (H i a) as [H1 H2]. rewrite H2. unfold adv. cbn [fold_left]. rewrite H2.
  destruct (IH (S i)) as [H3 H4]. split; [split; assumption|exact H4].
Qed.

Lemma g_enums_scoped file parent path tag scope es : forall j oe o,
  S file = of_file o -> oe = of_enum o -> par_ok (of_msg o) parent ->
  scoped o (g_enums file parent path tag scope j oe es) /\
  adv o (g_enums file parent path tag scope j oe es)
  = Off (of_file o) (of_msg o) (of_enum o + length es) (of_service o) (of_ext o).
Proof.
  induction es as [|e es IH]; intros j oe o Hf He Hp.
  - cbn. rewrite Nat.add_0_r. destruct o. split; [exact I|reflexivity].
  - unfold g_enums. cbn [mapi concat]. fold (g_enums file parent path tag scope).
    assert (concat (mapi (S j) (fun j' e0 => g_enum file parent (path ++ [tag; zn j']) scope
              (oe + (j' - j)) e0) es) = g_enums file parent path tag scope (S j) (S oe) es) as ->.
    { unfold g_enums. f_equal.
      assert (forall k, (S j <= k)%nat ->
        mapi k (fun j' e0 => g_enum file parent (path ++ [tag; zn j']) scope (oe + (j' - j)) e0) es =
        mapi k (fun j' e0 => g_enum file parent (path ++ [tag; zn j']) scope (S oe + (j' - S j)) e0) es)
        as HH; [|apply HH; lia].
      clear. induction es as [|a l IH]; intros k Hk; cbn [mapi]; [reflexivity|].
      f_equal; [f_equal; lia|apply IH; lia]. }
    rewrite Nat.sub_diag, Nat.add_0_r. unfold g_enum.
    set (o1 := Off (of_file o) (of_msg o) (S (of_enum o)) (of_service o) (of_ext o)).
    destruct (leaf_scoped (fun j0 v => EvEnumValue ((path ++ [tag; zn j]) ++ [2%Z; zn j0])
                 (join_scope scope (fst v)) file oe j0 v) (ep_values e) o1) with (i := O) as [S1 A1].
    { intros n a. subst o1. cbn. split; [split; [exact Hf|lia]|reflexivity]. }
    destruct (IH (S j) (S oe) o1) as [S2 A2]; try (subst o1; cbn; auto; lia).
    split.
    + cbn [scoped app]. split; [cbn; auto|]. apply scoped_app.
      unfold g_values. split; [exact S1|]. cbn [adv1]. fold o1. rewrite A1. exact S2.
    + cbn [app]. rewrite adv_cons. unfold g_values. cbn [adv1]. fold o1.
      rewrite adv_app, A1, A2. subst o1. cbn. f_equal. lia.
Qed.

Lemma g_services_scoped file scope ss : forall j os o,
  S file = of_file o -> os = of_service o ->
  scoped o (g_services file scope j os ss) /\
  adv o (g_services file scope j os ss)
  = Off (of_file o) (of_msg o) (of_enum o) (of_service o + length ss) (of_ext o).
Proof.
  induction ss as [|e es IH]; intros j oe o Hf He.
  - cbn. rewrite Nat.add_0_r. destruct o. split; [exact I|reflexivity].
  - unfold g_services. cbn [mapi concat].
    assert (concat (mapi (S j) (fun j' e0 => g_service file [6%Z; zn j'] scope
              (oe + (j' - j)) e0) es) = g_services file scope (S j) (S oe) es) as ->.
    { unfold g_services. f_equal.
      assert (forall k, (S j <= k)%nat ->
        mapi k (fun j' e0 => g_service file [6%Z; zn j'] scope (oe + (j' - j)) e0) es =
        mapi k (fun j' e0 => g_service file [6%Z; zn j'] scope (S oe + (j' - S j)) e0) es)
        as HH; [|apply HH; lia].
      clear. induction es as [|a l IH]; intros k Hk; cbn [mapi]; [reflexivity|].
      f_equal; [f_equal; lia|apply IH; lia]. }
    rewrite Nat.sub_diag, Nat.add_0_r. unfold g_service.
    set (o1 := Off (of_file o) (of_msg o) (of_enum o) (S (of_service o)) (of_ext o)).
    destruct (leaf_scoped (fun j0 v => EvMethod ([6%Z; zn j] ++ [2%Z; zn j0])
                 (join_scope (join_scope scope (sp_name e)) (mp_name v)) file oe j0 v) (sp_methods e) o1) with (i := O) as [S1 A1].
    { intros n a. subst o1. cbn. split; [split; [exact Hf|lia]|reflexivity]. }
    destruct (IH (S j) (S oe) o1) as [S2 A2]; try (subst o1; cbn; auto; lia).
    split.
    + cbn [scoped app]. split; [cbn; auto|]. apply scoped_app.
      unfold g_methods. split; [exact S1|]. cbn [adv1]. fold o1. rewrite A1. exact S2.
    + cbn [app]. rewrite adv_cons. unfold g_methods. cbn [adv1]. fold o1.
      rewrite adv_app, A1, A2. subst o1. cbn. f_equal. lia.
Qed.

Lemma g_exts_scoped file parent path tag scope xs : forall ox o,
  S file = of_file o -> ox = of_ext o -> par_ok (of_msg o) parent ->
  scoped o (g_exts file parent path tag scope ox xs) /\
  adv o (g_exts file parent path tag scope ox xs)
  = Off (of_file o) (of_msg o) (of_enum o) (of_service o) (of_ext o + length xs).
Proof.
  unfold g_exts.
  assert (forall i ox o, S file = of_file o -> (ox + i)%nat = of_ext o -> par_ok (of_msg o) parent ->
    let l := mapi i (fun j x => EvExt (path ++ [tag; zn j]) (join_scope scope (fp_name x)) file parent
                                      (ox + j) x) xs in
    scoped o l /\ adv o l = Off (of_file o) (of_msg o) (of_enum o) (of_service o) (of_ext o + length xs))
    as H.
  2:{ intros ox o H1 H2 H3. apply H; auto; lia. }
  induction xs as [|x xs IH]; intros i ox o H1 H2 H3 l; subst l; cbn [mapi scoped].
  - cbn. rewrite Nat.add_0_r. destruct o. split; [exact I|reflexivity].
  - set (o1 := Off (of_file o) (of_msg o) (of_enum o) (of_service o) (S (of_ext o))).
    destruct (IH (S i) ox o1) as [S1 A1]; try (subst o1; cbn; auto; lia).
    split; [split; [cbn; auto; lia|exact S1]|].
    match goal with |- adv o (?e :: ?l) = _ => change (adv o (e :: l)) with (adv o1 l) end.
    rewrite A1. subst o1. cbn. f_equal. lia.
Qed.

Lemma g_list_scoped (g : nat -> nat -> nat -> nat -> dproto -> list event) (Q : offsets -> Prop) ns :
  (forall o dm de dx, Q o -> Q (off_msgs o dm de dx)) ->
  Forall (fun n => forall j o, Q o ->
            scoped o (g j (of_msg o) (of_enum o) (of_ext o) n) /\
            adv o (g j (of_msg o) (of_enum o) (of_ext o) n) = off_msgs o (msize n) (esize n) (xsize n)) ns ->
  forall j o, Q o ->
  scoped o (g_list g j (of_msg o) (of_enum o) (of_ext o) ns) /\
  adv o (g_list g j (of_msg o) (of_enum o) (of_ext o) ns) = off_msgs o (msizes ns) (esizes ns) (xsizes ns).
Proof.
  intros HQ. induction 1 as [|n ns Hn _ IH]; intros j o Ho; cbn [g_list].
  - split; [exact I|]. unfold off_msgs. cbn. rewrite !Nat.add_0_r. destruct o; reflexivity.
  - destruct (Hn j o Ho) as [S1 A1].
    destruct (IH (S j) (off_msgs o (msize n) (esize n) (xsize n)) (HQ _ _ _ _ Ho)) as [S2 A2].
    change (of_msg (off_msgs o (msize n) (esize n) (xsize n))) with (of_msg o + msize n)%nat in S2, A2.
    change (of_enum (off_msgs o (msize n) (esize n) (xsize n))) with (of_enum o + esize n)%nat in S2, A2.
    change (of_ext (off_msgs o (msize n) (esize n) (xsize n))) with (of_ext o + xsize n)%nat in S2, A2.
    rewrite scoped_app, adv_app, A1. split; [split; [exact S1|exact S2]|].
    rewrite A2. unfold off_msgs, msizes, esizes, xsizes. cbn. unfold list_sum. f_equal; lia.
Qed.

Lemma g_message_scoped file m : forall parent path scope o,
  S file = of_file o -> par_ok (of_msg o) parent ->
  scoped o (g_message file parent path scope (of_msg o) (of_enum o) (of_ext o) m) /\
  adv o (g_message file parent path scope (of_msg o) (of_enum o) (of_ext o) m)
  = off_msgs o (msize m) (esize m) (xsize m).
Proof.
  induction m as [name fs xs ns es r os me rv IH] using dproto_ind'.
  intros parent path scope o Hf Hp. cbn [g_message].
  set (full := join_scope scope name).
  set (o1 := Off (of_file o) (S (of_msg o)) (of_enum o) (of_service o) (of_ext o)).
  match goal with |- scoped o (?e :: ?l) /\ _ =>
    change (scoped o (e :: l)) with (scoped1 o e /\ scoped o1 l);
    change (adv o (e :: l)) with (adv o1 l) end.
  rewrite !scoped_app, !adv_app.
  destruct (leaf_scoped (fun j o' => EvOneof (path ++ [8%Z; zn j]) (join_scope full o') file (of_msg o) j o')
              os o1) with (i := O) as [S1 A1].
  { intros n a. subst o1. cbn. split; [split; [exact Hf|lia]|reflexivity]. }
  fold (g_oneofs file (of_msg o) path full os) in S1, A1. rewrite A1.
  destruct (leaf_scoped (fun j f => EvField (path ++ [2%Z; zn j]) (join_scope full (fp_name f)) file (of_msg o) j f)
              fs o1) with (i := O) as [S2 A2].
  { intros n a. subst o1. cbn. split; [split; [exact Hf|lia]|reflexivity]. }
  fold (g_fields file (of_msg o) path full fs) in S2, A2. rewrite A2.
  destruct (g_list_scoped (fun j om' oe' ox' n =>
              g_message file (Some (of_msg o)) (path ++ [3%Z; zn j]) full om' oe' ox' n)
            (fun o' => S file = of_file o' /\ (of_msg o < of_msg o')%nat) ns) with (j := O) (o := o1)
    as [S3 A3].
  { intros o' dm de dx [H1 H2]. unfold off_msgs. cbn. split; [exact H1|lia]. }
  { eapply Forall_impl; [|exact IH]. intros n Hn j o' [H1 H2]. apply Hn; [exact H1|exact H2]. }
  { subst o1. cbn. split; [exact Hf|lia]. }
  change (g_list _ 0 (of_msg o1) (of_enum o1) (of_ext o1) ns) with
    (g_list (fun j om' oe' ox' n =>
              g_message file (Some (of_msg o)) (path ++ [3%Z; zn j]) full om' oe' ox' n)
            0 (S (of_msg o)) (of_enum o) (of_ext o) ns) in S3, A3.
  rewrite A3.
  set (o3 := off_msgs o1 (msizes ns) (esizes ns) (xsizes ns)).
  destruct (g_enums_scoped file (Some (of_msg o)) path 4 full es 0 (of_enum o + list_sum (map esize ns)) o3)
    as [S4 A4].
  { subst o3 o1. exact Hf. } { subst o3 o1. reflexivity. } { subst o3 o1. cbn. lia. }
  rewrite A4.
  match goal with |- context [scoped ?o4 (g_exts _ _ _ _ _ ?ox _)] =>
    destruct (g_exts_scoped file (Some (of_msg o)) path 6 full xs ox o4) as [S5 A5] end.
  { subst o3 o1. exact Hf. } { subst o3 o1. reflexivity. } { subst o3 o1. cbn. lia. }
  rewrite A5. split.
  - split; [cbn; auto|]. repeat (split; try assumption).
  - subst o3 o1. unfold off_msgs. cbn. unfold msizes, esizes, xsizes, list_sum. f_equal; lia.
Qed.

Lemma g_file_scoped o f :
  scoped o (g_file o f) /\ adv o (g_file o f) = off_file o f.
Proof.
  unfold g_file. set (o1 := Off (S (of_file o)) (of_msg o) (of_enum o) (of_service o) (of_ext o)).
  match goal with |- scoped o (?e :: ?l) /\ _ =>
    change (scoped o (e :: l)) with (scoped1 o e /\ scoped o1 l);
    change (adv o (e :: l)) with (adv o1 l) end.
  rewrite !scoped_app, !adv_app.
  destruct (g_list_scoped (fun j om' oe' ox' n =>
              g_message (of_file o) None ([] ++ [4%Z; zn j]) (fl_package f) om' oe' ox' n)
            (fun o' => S (of_file o) = of_file o') (fl_messages f)) with (j := O) (o := o1)
    as [S3 A3].
  { intros o' dm de dx H1. exact H1. }
  { apply Forall_forall. intros n _ j o' H1. apply g_message_scoped; [exact H1|exact I]. }
  { reflexivity. }
  unfold g_messages.
  change (of_msg o1) with (of_msg o) in S3, A3. change (of_enum o1) with (of_enum o) in S3, A3.
  change (of_ext o1) with (of_ext o) in S3, A3. rewrite A3.
  set (o3 := off_msgs o1 _ _ _) in *.
  destruct (g_enums_scoped (of_file o) None [] 5 (fl_package f) (fl_enums f) 0
              (of_enum o + esizes (fl_messages f)) o3) as [S4 A4]; try (subst o3 o1; reflexivity || exact I).
  rewrite A4.
  match goal with |- context [scoped ?o4 (g_services _ _ _ _ _)] =>
    destruct (g_services_scoped (of_file o) (fl_package f) (fl_services f) 0 (of_service o) o4)
      as [S6 A6] end; try (subst o3 o1; reflexivity || exact I).
  rewrite A6.
  match goal with |- context [scoped ?o4 (g_exts _ _ _ _ _ ?ox _)] =>
    destruct (g_exts_scoped (of_file o) None [] 7 (fl_package f) (fl_exts f) ox o4) as [S5 A5] end;
    try (subst o3 o1; reflexivity || exact I).
  rewrite A5. split.
  - split; [reflexivity|]. repeat (split; try assumption).
  - subst o3 o1. unfold off_msgs, off_file. cbn. f_equal; lia.
Qed.

Lemma g_files_scoped fs : forall o, scoped o (g_files o fs).
Proof.
  induction fs as [|f fs IH]; intros o; cbn [g_files]; [exact I|].
  destruct (g_file_scoped o f) as [S1 A1]. apply scoped_app. rewrite A1. split; [exact S1|apply IH].
Qed.
Lemma visit_scoped o fs : scoped o (visit o fs).
Proof. rewrite visit_eq. apply g_files_scoped. Qed.

(** ** The parts of a definition *)

(** what a call describes a part of: fields and oneofs of a message (0, 1),
    methods of a service (2), values of an enum (3) *)
Definition owner (e : event) : option (nat * nat) :=
  match e with
  | EvField _ _ _ m _ _ => Some (0%nat, m)
  | EvOneof _ _ _ m _ _ => Some (1%nat, m)
  | EvMethod _ _ _ s _ _ => Some (2%nat, s)
  | EvEnumValue _ _ _ e _ _ => Some (3%nat, e)
  | _ => None
  end.
Definition owned (k i : nat) (e : event) : bool :=
  match owner e with Some (k', i') => (k =? k')%nat && (i =? i')%nat | None => false end.
Definition kids (k i : nat) (es : list event) : list event := filter (owned k i) es.
Definition heads (e : event) : list (nat * nat * list event) :=
  match e with
  | EvMessage path full f _ i m =>
      [(0%nat, i, g_fields f i path full (dp_fields m)); (1%nat, i, g_oneofs f i path full (dp_oneofs m))]
  | EvService path full f i s => [(2%nat, i, g_methods f i path full (sp_methods s))]
  | _ => []
  end.
(** an enum's values live in the scope around the enum *)
Definition ehead (e : event) : option (nat * (str -> list event)) :=
  match e with
  | EvEnum path _ f _ i en => Some (i, fun scope => g_values f i path scope (ep_values en))
  | _ => None
  end.
Definition is_head (h : event) (k i : nat) : Prop :=
  (exists l, In (k, i, l) (heads h)) \/ (k = 3%nat /\ exists g, ehead h = Some (i, g)).

Definition closed (es : list event) : Prop :=
  forall e k i, In e es -> owner e = Some (k, i) -> exists h, In h es /\ is_head h k i.
Definition complete (es : list event) : Prop :=
  forall h, In h es ->
    (forall k i l, In (k, i, l) (heads h) -> kids k i es = l) /\
    (forall i g, ehead h = Some (i, g) -> exists scope, kids 3 i es = g scope).

Definition oget (o : offsets) (k : nat) : nat :=
  match k with 2%nat => of_service o | 3%nat => of_enum o | _ => of_msg o end.

Lemma oget_adv1 o e k : (oget o k <= oget (adv1 o e) k)%nat.
Proof. destruct e, o; destruct k as [|[|[|[|k]]]]; cbn; lia. Qed.
Lemma oget_adv o es k : (oget o k <= oget (adv o es) k)%nat.
Proof.
  revert o. induction es as [|e es IH]; intros o; [cbn; lia|]. rewrite adv_cons.
  specialize (IH (adv1 o e)). pose proof (oget_adv1 o e k). lia.
Qed.
Lemma head_range es : forall o h k i, scoped o es -> In h es -> is_head h k i ->
  (oget o k <= i < oget (adv o es) k)%nat.
Proof.
  induction es as [|e es IH]; intros o h k i Hs Hin Hh; [destruct Hin|].
  destruct Hs as [H1 H2].
  rewrite adv_cons. destruct Hin as [-> | Hin].
  - pose proof (oget_adv (adv1 o h) es k).
    assert (i = oget o k /\ oget (adv1 o h) k = S (oget o k)) as [-> E]; [|lia].
    destruct Hh as [[l Hl]|[-> [g Hg]]].
    + destruct h; cbn in Hl; try contradiction; cbn in H1.
      * destruct Hl as [E|[E|[]]]; inversion E; subst; cbn; intuition.
      * destruct Hl as [E|[]]; inversion E; subst; cbn; intuition.
    + destruct h; cbn in Hg; try discriminate. inversion Hg; subst. cbn in *. intuition.
  - destruct (IH _ _ _ _ H2 Hin Hh) as [A B]. pose proof (oget_adv1 o e k). lia.
Qed.

Lemma kids_app k i a b : kids k i (a ++ b) = kids k i a ++ kids k i b.
Proof. unfold kids. apply filter_app. Qed.
Lemma kids_none k i es :
  (forall e, In e es -> owner e <> Some (k, i)) -> kids k i es = [].
Proof.
  unfold kids. induction es as [|e es IH]; intros H; cbn; [reflexivity|].
  rewrite IH by (intros x Hx; apply H; right; exact Hx).
  unfold owned. destruct (owner e) as [[k' i']|] eqn:E; [|reflexivity].
  destruct ((k =? k')%nat && (i =? i')%nat) eqn:B; [|reflexivity].
  apply andb_true_iff in B. destruct B as [B1 B2].
  apply Nat.eqb_eq in B1. apply Nat.eqb_eq in B2. subst.
  exfalso. apply (H e); [left; reflexivity|exact E].
Qed.
Lemma kids_all k i es :
  (forall e, In e es -> owner e = Some (k, i)) -> kids k i es = es.
Proof.
  unfold kids. induction es as [|e es IH]; intros H; cbn; [reflexivity|].
  rewrite IH by (intros x Hx; apply H; right; exact Hx).
  unfold owned. rewrite (H e) by (left; reflexivity). rewrite !Nat.eqb_refl. reflexivity.
Qed.
Lemma kids_out o es k i : closed es -> scoped o es -> ~ (oget o k <= i < oget (adv o es) k)%nat ->
  kids k i es = [].
Proof.
  intros Hc Hs Hr. apply kids_none. intros e He E. apply Hr.
  destruct (Hc _ _ _ He E) as [h [Hh Hi]]. exact (head_range _ _ _ _ _ Hs Hh Hi).
Qed.

Lemma cc_app o a b : scoped o (a ++ b) -> closed a -> complete a -> closed b -> complete b ->
  closed (a ++ b) /\ complete (a ++ b).
Proof.
  intros Hs Ca Ka Cb Kb. apply scoped_app in Hs. destruct Hs as [Sa Sb]. split.
  - intros e k i He E. apply in_app_or in He. destruct He as [He|He].
    + destruct (Ca _ _ _ He E) as [h [H1 H2]]. exists h. split; [apply in_or_app; auto|exact H2].
    + destruct (Cb _ _ _ He E) as [h [H1 H2]]. exists h. split; [apply in_or_app; auto|exact H2].
  - intros h Hin. apply in_app_or in Hin. destruct Hin as [Hin|Hin].
    + destruct (Ka _ Hin) as [K1 K2]. split.
      * intros k i l Hl. rewrite kids_app, (K1 _ _ _ Hl).
        assert (is_head h k i) as Hh by (left; eauto).
        destruct (head_range _ _ _ _ _ Sa Hin Hh) as [_ R].
        rewrite (kids_out _ _ _ _ Cb Sb) by lia. apply app_nil_r.
      * intros i g Hg. destruct (K2 _ _ Hg) as [sc E]. exists sc. rewrite kids_app, E.
        assert (is_head h 3 i) as Hh by (right; eauto).
        destruct (head_range _ _ _ _ _ Sa Hin Hh) as [_ R].
        rewrite (kids_out _ _ _ _ Cb Sb) by lia. apply app_nil_r.
    + destruct (Kb _ Hin) as [K1 K2]. split.
      * intros k i l Hl. rewrite kids_app, (K1 _ _ _ Hl).
        assert (is_head h k i) as Hh by (left; eauto).
        destruct (head_range _ _ _ _ _ Sb Hin Hh) as [R _].
        rewrite (kids_out _ _ _ _ Ca Sa) by lia. reflexivity.
      * intros i g Hg. destruct (K2 _ _ Hg) as [sc E]. exists sc. rewrite kids_app, E.
        assert (is_head h 3 i) as Hh by (right; eauto).
        destruct (head_range _ _ _ _ _ Sb Hin Hh) as [R _].
        rewrite (kids_out _ _ _ _ Ca Sa) by lia. reflexivity.
Qed.

Lemma cc_node o h0 own rest :
  scoped o (h0 :: own ++ rest) -> closed rest -> complete rest ->
  owner h0 = None ->
  (forall e, In e own -> heads e = [] /\ ehead e = None) ->
  (forall e k i, In e own -> owner e = Some (k, i) -> is_head h0 k i) ->
  (forall k i l, In (k, i, l) (heads h0) -> kids k i own = l) ->
  (forall i g, ehead h0 = Some (i, g) -> exists scope, kids 3 i own = g scope) ->
  closed (h0 :: own ++ rest) /\ complete (h0 :: own ++ rest).
Proof.
  intros Hs Cr Kr Hn Ho Hw Hl He. destruct Hs as [Hs0 Hs]. apply scoped_app in Hs.
  destruct Hs as [So Sr].
  assert (forall k i, kids k i (h0 :: own ++ rest) = kids k i own ++ kids k i rest) as KK.
  { intros k i. unfold kids. cbn. unfold owned at 1. rewrite Hn. apply filter_app. }
  assert (forall k i, is_head h0 k i -> (i < oget (adv (adv1 o h0) own) k)%nat) as R0.
  { intros k i Hh. destruct (head_range [h0] o h0 k i) as [_ R]; [split; [exact Hs0|exact I]|left; reflexivity|exact Hh|].
    cbn in R. pose proof (oget_adv (adv1 o h0) own k). unfold adv in R. cbn in R. lia. }
  split.
  - intros e k i Hin E. destruct Hin as [-> | Hin]; [congruence|].
    apply in_app_or in Hin. destruct Hin as [Hin|Hin].
    + exists h0. split; [left; reflexivity|]. exact (Hw _ _ _ Hin E).
    + destruct (Cr _ _ _ Hin E) as [h [H1 H2]]. exists h. split; [right; apply in_or_app; auto|exact H2].
  - intros h Hin. destruct Hin as [-> | Hin].
    + split.
      * intros k i l Hil. rewrite KK, (Hl _ _ _ Hil).
        assert (is_head h k i) as Hh by (left; eauto). specialize (R0 _ _ Hh).
        rewrite (kids_out _ _ _ _ Cr Sr) by lia. apply app_nil_r.
      * intros i g Hg. destruct (He _ _ Hg) as [sc E]. exists sc. rewrite KK, E.
        assert (is_head h 3 i) as Hh by (right; eauto). specialize (R0 _ _ Hh).
        rewrite (kids_out _ _ _ _ Cr Sr) by lia. apply app_nil_r.
    + apply in_app_or in Hin. destruct Hin as [Hin|Hin].
      { destruct (Ho _ Hin) as [E1 E2]. split; intros *; [rewrite E1; intros []|rewrite E2; discriminate]. }
      assert (forall k i, is_head h k i -> kids k i own = []) as KO.
      { intros k i Hh. apply kids_none. intros e Hi E. specialize (R0 _ _ (Hw _ _ _ Hi E)).
        destruct (head_range _ _ _ _ _ Sr Hin Hh) as [R _]. lia. }
      destruct (Kr _ Hin) as [K1 K2]. split.
      * intros k i l Hil. rewrite KK, (K1 _ _ _ Hil), KO by (left; eauto). reflexivity.
      * intros i g Hg. destruct (K2 _ _ Hg) as [sc E]. exists sc.
        rewrite KK, E, KO by (right; eauto). reflexivity.
Qed.

Lemma cc_nil : closed [] /\ complete [].
Proof. split; [intros e k i []|intros h []]. Qed.

Lemma in_mapi {A B} (g : nat -> A -> B) l : forall i b, In b (mapi i g l) -> exists n a, b = g n a /\ In a l.
Proof.
  induction l as [|a l IH]; intros i b H; cbn in H; [destruct H|].
  destruct H as [<- | H]; [exists i, a; split; [reflexivity|left; reflexivity]|].
  destruct (IH _ _ H) as [n [a' [E Hi]]]. exists n, a'. split; [exact E|right; exact Hi].
Qed.

Lemma mapi_S_shift {A B} (g h : nat -> A -> B) (l : list A) k :
  (forall j a, (k <= j)%nat -> g j a = h j a) -> mapi k g l = mapi k h l.
Proof.
  revert k. induction l as [|a l IH]; intros k H; cbn [mapi]; [reflexivity|].
  rewrite H by lia. f_equal. apply IH. intros j b Hj. apply H. lia.
Qed.

Lemma g_enums_cons file parent path tag scope j oe e es :
  g_enums file parent path tag scope j oe (e :: es)
  = g_enum file parent (path ++ [tag; zn j]) scope oe e ++ g_enums file parent path tag scope (S j) (S oe) es.
Proof.
  unfold g_enums. cbn [mapi concat]. rewrite Nat.sub_diag, Nat.add_0_r. f_equal. f_equal.
  apply mapi_S_shift. intros k a Hk. f_equal. lia.
Qed.
Lemma g_services_cons file scope j os e es :
  g_services file scope j os (e :: es)
  = g_service file [6%Z; zn j] scope os e ++ g_services file scope (S j) (S os) es.
Proof.
  unfold g_services. cbn [mapi concat]. rewrite Nat.sub_diag, Nat.add_0_r. f_equal. f_equal.
  apply mapi_S_shift. intros k a Hk. f_equal. lia.
Qed.

Lemma g_enums_cc file parent path tag scope es : forall j oe o,
  scoped o (g_enums file parent path tag scope j oe es) ->
  closed (g_enums file parent path tag scope j oe es) /\ complete (g_enums file parent path tag scope j oe es).
Proof.
  induction es as [|e es IH]; intros j oe o Hs; [exact cc_nil|].
  rewrite g_enums_cons in *.
  pose proof Hs as Hs'. apply scoped_app in Hs'. destruct Hs' as [Sa Sb].
  destruct (IH _ _ _ Sb) as [Cb Kb].
  assert (closed (g_enum file parent (path ++ [tag; zn j]) scope oe e)
          /\ complete (g_enum file parent (path ++ [tag; zn j]) scope oe e)) as [Ca Ka].
  2: { exact (cc_app _ _ _ Hs Ca Ka Cb Kb). }
  unfold g_enum in *. rewrite <- (app_nil_r (g_values _ _ _ _ _)) in *.
  assert (forall x, In x (g_values file oe (path ++ [tag; zn j]) scope (ep_values e)) ->
            owner x = Some (3%nat, oe) /\ heads x = [] /\ ehead x = None) as HV.
  { intros x Hx. apply in_mapi in Hx. destruct Hx as [n [a [-> _]]]. cbn. auto. }
  apply (cc_node o); try exact Sa; try apply cc_nil; try reflexivity.
  - intros x Hx. apply HV in Hx. tauto.
  - intros x k i Hx E. apply HV in Hx. destruct Hx as [E' _]. rewrite E' in E. inversion E; subst.
    right. split; [reflexivity|]. eexists. reflexivity.
  - intros k i l [].
  - intros i g Hg. cbn in Hg. inversion Hg; subst. exists scope. apply kids_all.
    intros x Hx. apply HV in Hx. tauto.
Qed.

Lemma g_services_cc file scope es : forall j oe o,
  scoped o (g_services file scope j oe es) ->
  closed (g_services file scope j oe es) /\ complete (g_services file scope j oe es).
Proof.
  induction es as [|e es IH]; intros j oe o Hs; [exact cc_nil|].
  rewrite g_services_cons in *.
  pose proof Hs as Hs'. apply scoped_app in Hs'. destruct Hs' as [Sa Sb].
  destruct (IH _ _ _ Sb) as [Cb Kb].
  assert (closed (g_service file [6%Z; zn j] scope oe e)
          /\ complete (g_service file [6%Z; zn j] scope oe e)) as [Ca Ka].
  2: { exact (cc_app _ _ _ Hs Ca Ka Cb Kb). }
  unfold g_service in *. rewrite <- (app_nil_r (g_methods _ _ _ _ _)) in *.
  assert (forall x, In x (g_methods file oe [6%Z; zn j] (join_scope scope (sp_name e)) (sp_methods e)) ->
            owner x = Some (2%nat, oe) /\ heads x = [] /\ ehead x = None) as HV.
  { intros x Hx. apply in_mapi in Hx. destruct Hx as [n [a [-> _]]]. cbn. auto. }
  apply (cc_node o); try exact Sa; try apply cc_nil; try reflexivity.
  - intros x Hx. apply HV in Hx. tauto.
  - intros x k i Hx E. apply HV in Hx. destruct Hx as [E' _]. rewrite E' in E. inversion E; subst.
    left. eexists. left. reflexivity.
  - intros k i l [E|[]]. inversion E; subst. apply kids_all. intros x Hx. apply HV in Hx. tauto.
  - discriminate.
Qed.

Lemma g_exts_cc file parent path tag scope ox xs :
  closed (g_exts file parent path tag scope ox xs) /\ complete (g_exts file parent path tag scope ox xs).
Proof.
  split.
  - intros e k i He E. apply in_mapi in He. destruct He as [n [a [-> _]]]. discriminate.
  - intros h Hh. apply in_mapi in Hh. destruct Hh as [n [a [-> _]]]. split; [intros k i l []|discriminate].
Qed.

Lemma g_list_cc (g : nat -> nat -> nat -> nat -> dproto -> list event) ns :
  Forall (fun n => forall j om oe ox o, scoped o (g j om oe ox n) ->
            closed (g j om oe ox n) /\ complete (g j om oe ox n)) ns ->
  forall j om oe ox o, scoped o (g_list g j om oe ox ns) ->
  closed (g_list g j om oe ox ns) /\ complete (g_list g j om oe ox ns).
Proof.
  induction 1 as [|n ns Hn _ IH]; intros j om oe ox o Hs; cbn [g_list] in *; [exact cc_nil|].
  pose proof Hs as Hs'. apply scoped_app in Hs'. destruct Hs' as [Sa Sb].
  destruct (IH _ _ _ _ _ Sb) as [Cb Kb]. destruct (Hn _ _ _ _ _ Sa) as [Ca Ka].
  exact (cc_app _ _ _ Hs Ca Ka Cb Kb).
Qed.

Lemma g_message_cc file m : forall parent path scope om oe ox o,
  scoped o (g_message file parent path scope om oe ox m) ->
  closed (g_message file parent path scope om oe ox m) /\
  complete (g_message file parent path scope om oe ox m).
Proof.
  induction m as [name fs xs ns es r os me rv IH] using dproto_ind'.
  intros parent path scope om oe ox o Hs. cbn [g_message] in *.
  rewrite app_assoc in *. set (full := join_scope scope name) in *.
  assert (HO : forall x, In x (g_oneofs file om path full os) ->
            owner x = Some (1%nat, om) /\ heads x = [] /\ ehead x = None).
  { intros x Hx. apply in_mapi in Hx. destruct Hx as [n [a [-> _]]]. cbn. auto. }
  assert (HF : forall x, In x (g_fields file om path full fs) ->
            owner x = Some (0%nat, om) /\ heads x = [] /\ ehead x = None).
  { intros x Hx. apply in_mapi in Hx. destruct Hx as [n [a [-> _]]]. cbn. auto. }
  pose proof Hs as Hs'. destruct Hs' as [_ Hs']. apply scoped_app in Hs'. destruct Hs' as [_ Sr].
  match type of Sr with scoped ?o' _ => set (o1 := o') in * end.
  match goal with |- closed (_ :: _ ++ ?r) /\ _ => set (rest := r) in * end.
  assert (closed rest /\ complete rest) as [Cr Kr].
  { subst rest. pose proof Sr as Sr'. apply scoped_app in Sr'. destruct Sr' as [S1 S2].
    pose proof S2 as S2'. apply scoped_app in S2'. destruct S2' as [S3 S4].
    destruct (g_exts_cc file (Some om) path 6 full (ox + list_sum (map xsize ns)) xs) as [Cx Kx].
    destruct (g_enums_cc _ _ _ _ _ _ _ _ _ S3) as [Ce Ke].
    destruct (cc_app _ _ _ S2 Ce Ke Cx Kx) as [C2 K2].
    eapply cc_app; [exact Sr| | |exact C2|exact K2].
    - eapply g_list_cc; [|exact S1]. eapply Forall_impl; [|exact IH].
      intros n Hn j om' oe' ox' o' Ho. exact (Hn _ _ _ _ _ _ _ Ho).
    - eapply g_list_cc; [|exact S1]. eapply Forall_impl; [|exact IH].
      intros n Hn j om' oe' ox' o' Ho. exact (Hn _ _ _ _ _ _ _ Ho). }
  apply (cc_node o); try assumption; try reflexivity.
  - intros x Hx. apply in_app_or in Hx. destruct Hx as [Hx|Hx]; [apply HO in Hx|apply HF in Hx]; tauto.
  - intros x k i Hx E. left.
    apply in_app_or in Hx. destruct Hx as [Hx|Hx]; [apply HO in Hx|apply HF in Hx];
      destruct Hx as [E' _]; rewrite E' in E; inversion E; subst; cbn.
    + eexists. right. left. reflexivity.
    + eexists. left. reflexivity.
  - intros k i l Hl. rewrite kids_app. cbn in Hl.
    destruct Hl as [E|[E|[]]]; inversion E; subst k i l.
    + rewrite kids_none.
      * apply kids_all. intros x Hx. apply HF in Hx. tauto.
      * intros x Hx. apply HO in Hx. destruct Hx as [-> _]. discriminate.
    + rewrite (kids_none _ _ (g_fields _ _ _ _ _)).
      * rewrite app_nil_r. apply kids_all. intros x Hx. apply HO in Hx. tauto.
      * intros x Hx. apply HF in Hx. destruct Hx as [-> _]. discriminate.
  - discriminate.
Qed.

Lemma g_file_cc o f : closed (g_file o f) /\ complete (g_file o f).
Proof.
  destruct (g_file_scoped o f) as [Hs _]. unfold g_file in *.
  pose proof Hs as [_ Hr].
  match goal with |- closed (?h :: ?r) /\ _ => set (rest := r) in *; change (h :: rest) with (h :: [] ++ rest) in * end.
  assert (closed rest /\ complete rest) as [Cr Kr].
  { subst rest. pose proof Hr as H1. apply scoped_app in H1. destruct H1 as [S1 R1].
    pose proof R1 as H1. apply scoped_app in H1. destruct H1 as [S2 R2].
    pose proof R2 as H1. apply scoped_app in H1. destruct H1 as [S3 R3].
    destruct (g_exts_cc (of_file o) None [] 7 (fl_package f) (of_ext o + xsizes (fl_messages f)) (fl_exts f)) as [Cx Kx].
    destruct (g_services_cc _ _ _ _ _ _ S3) as [Cs Ks].
    destruct (g_enums_cc _ _ _ _ _ _ _ _ _ S2) as [Ce Ke].
    destruct (cc_app _ _ _ R2 Cs Ks Cx Kx) as [C2 K2].
    destruct (cc_app _ _ _ R1 Ce Ke C2 K2) as [C1 K1].
    assert (forall P : Prop, P -> P) as idp by auto.
    destruct (g_list_cc (fun j om oe ox n =>
       g_message (of_file o) None ([] ++ [4%Z; zn j]) (fl_package f) om oe ox n) (fl_messages f)) with
       (j := O) (om := of_msg o) (oe := of_enum o) (ox := of_ext o) (o := adv1 o (EvFile [] (of_file o) f))
       as [Cm Km].
    - apply Forall_forall. intros n _ j om oe ox o' Ho. exact (g_message_cc _ _ _ _ _ _ _ _ _ Ho).
    - exact S1.
    - exact (cc_app _ _ _ Hr Cm Km C1 K1). }
  apply (cc_node o); try assumption; try reflexivity; cbn; try contradiction; try discriminate.
Qed.

Lemma visit_cc o fs : closed (visit o fs) /\ complete (visit o fs).
Proof.
  rewrite visit_eq. revert o. induction fs as [|f fs IH]; intros o; cbn [g_files]; [exact cc_nil|].
  destruct (IH (off_file o f)) as [C2 K2]. destruct (g_file_cc o f) as [C1 K1].
  eapply cc_app; [exact (g_files_scoped (f :: fs) o)| | | |]; assumption.
Qed.

(** ** Paths lead back to the definition *)

Definition located (F : nat -> option file) (e : event) : Prop :=
  match e with
  | EvFile _ i f => F i = Some f
  | EvMessage path _ fi _ _ m => exists f, F fi = Some f /\ find_message_proto f path = Some m
  | EvField path _ fi _ _ x | EvExt path _ fi _ _ x =>
      exists f, F fi = Some f /\ find_file_field f path = Some x /\ type_name_place f path = Some tt
  | EvEnum path _ fi _ _ en => exists f, F fi = Some f /\ find_enum_proto f path = Some en
  | EvMethod path _ fi _ _ _ => exists f, F fi = Some f /\ type_name_place f path = Some tt
  | EvOneof _ _ fi _ _ _ | EvService _ _ fi _ _ | EvEnumValue _ _ fi _ _ _ => exists f, F fi = Some f
  end.

Lemma mapi_in_nth {A B} (g : nat -> A -> B) l : forall i b, In b (mapi i g l) ->
  exists n a, b = g (i + n)%nat a /\ nth_error l n = Some a.
Proof.
  induction l as [|a l IH]; intros i b H; cbn in H; [destruct H|].
  destruct H as [<- | H]; [exists O, a; rewrite Nat.add_0_r; split; reflexivity|].
  destruct (IH _ _ H) as [n [a' [E Hi]]]. exists (S n), a'. split; [|exact Hi].
  rewrite E. f_equal. lia.
Qed.

Lemma find_msg_app f path : forall cur m q,
  find_msg f cur path = Some m -> find_msg f cur (path ++ q) = find_msg f (Some m) q.
Proof.
  assert (forall n path, (length path <= n)%nat -> forall cur m q,
    find_msg f cur path = Some m -> find_msg f cur (path ++ q) = find_msg f (Some m) q) as H.
  2: { intros cur m q. apply (H (length path)). lia. }
  clear path. induction n as [|n IH]; intros path Hn cur m q H.
  - destruct path; [|cbn in Hn; lia]. cbn in *. subst. reflexivity.
  - destruct path as [|tag [|i rest]]; cbn in H |- *; [subst; reflexivity|discriminate|].
    cbn in Hn.
    destruct (tag =? 4)%Z.
    + destruct (nth_error (fl_messages f) (Z.to_nat i)); [|discriminate]. apply IH; [lia|exact H].
    + destruct (tag =? 3)%Z; [|discriminate]. destruct cur as [c|]; [|discriminate].
      destruct (nth_error (dp_nested c) (Z.to_nat i)); [|discriminate]. apply IH; [lia|exact H].
Qed.

Lemma firstn_last2 {A} (p : list A) a b : firstn (length (p ++ [a; b]) - 2) (p ++ [a; b]) = p.
Proof. apply firstn_exact. rewrite app_length. cbn. lia. Qed.
Lemma skipn_last2 {A} (p : list A) a b : skipn (length (p ++ [a; b]) - 2) (p ++ [a; b]) = [a; b].
Proof.
  rewrite app_length. cbn [length]. replace (length p + 2 - 2)%nat with (length p) by lia.
  rewrite skipn_app, skipn_all, Nat.sub_diag. reflexivity.
Qed.
Lemma zn_nat j : Z.to_nat (zn j) = j.
Proof. unfold zn. lia. Qed.

(** the facts about a message's path its parts need *)
Definition placed (f : file) (path : list Z) (m : dproto) : Prop :=
  find_message_proto f path = Some m /\
  (2 <= length path)%nat /\ hd 0%Z path = 4%Z /\
  forall rest, find_file_field f (path ++ rest) = find_message_field m rest.

Lemma placed_nested f path m j n :
  placed f path m -> nth_error (dp_nested m) j = Some n -> placed f (path ++ [3%Z; zn j]) n.
Proof.
  intros [H1 [H2 [H3 H4]]] Hn. split; [|split; [|split]].
  - unfold find_message_proto in *. rewrite (find_msg_app _ _ _ _ _ H1). cbn. rewrite zn_nat, Hn. reflexivity.
  - rewrite app_length. lia.
  - destruct path; [cbn in H2; lia|exact H3].
  - intros rest. rewrite <- app_assoc, H4. cbn. rewrite zn_nat, Hn. reflexivity.
Qed.
Lemma placed_top f j m : nth_error (fl_messages f) j = Some m -> placed f [4%Z; zn j] m.
Proof.
  intros H. split; [|split; [|split]]; try reflexivity.
  - unfold find_message_proto. cbn [find_msg]. rewrite zn_nat, H. reflexivity.
  - intros rest. cbn. rewrite zn_nat, H. reflexivity.
Qed.
Lemma placed_place f path m rest x : placed f path m -> find_message_field m rest = Some x ->
  type_name_place f (path ++ rest) = Some tt.
Proof.
  intros [H1 [H2 [H3 H4]]] H. unfold type_name_place.
  destruct path as [|a [|b path]]; cbn in H2; try lia. cbn in H3. subst a.
  specialize (H4 rest). cbn [app] in *. cbn [Z.eqb Pos.eqb]. rewrite H4, H. reflexivity.
Qed.
Lemma placed_enum f path m j en : placed f path m -> nth_error (dp_enums m) j = Some en ->
  find_enum_proto f (path ++ [4%Z; zn j]) = Some en.
Proof.
  intros [H1 [H2 [H3 H4]]] H. unfold find_enum_proto.
  rewrite firstn_last2, skipn_last2, H1, zn_nat. cbn [Z.eqb Pos.eqb].
  destruct path as [|a [|b [|c path]]]; cbn in H2; try lia; exact H.
Qed.

Lemma g_message_located F f fi m : forall parent path scope om oe ox,
  F fi = Some f -> placed f path m ->
  Forall (located F) (g_message fi parent path scope om oe ox m).
Proof.
  induction m as [name fs xs ns es r os me rv IH] using dproto_ind'.
  intros parent path scope om oe ox HF Hp. cbn [g_message].
  constructor; [exists f; split; [exact HF|apply Hp]|].
  apply Forall_app; split; [|apply Forall_app; split; [|apply Forall_app; split; [|apply Forall_app; split]]].
  - apply Forall_forall. intros e He. apply in_mapi in He. destruct He as [n [a [-> _]]]. exists f. exact HF.
  - apply Forall_forall. intros e He. apply mapi_in_nth in He. destruct He as [n [a [-> Ha]]].
    assert (find_message_field (DP name fs xs ns es r os me rv) [2%Z; zn (0 + n)] = Some a) as E.
    { cbn [find_message_field Z.eqb Pos.eqb]. rewrite zn_nat. exact Ha. }
    exists f. split; [exact HF|]. split; [|exact (placed_place _ _ _ _ _ Hp E)].
    destruct Hp as [_ [_ [_ H4]]]. rewrite H4. exact E.
  - set (m := DP name fs xs ns es r os me rv) in *.
    assert (forall j om oe ox ns', (forall k n, nth_error ns' k = Some n -> nth_error ns (j + k) = Some n) ->
      Forall (fun n => forall parent path scope om oe ox, F fi = Some f -> placed f path n ->
                Forall (located F) (g_message fi parent path scope om oe ox n)) ns' ->
      Forall (located F) (g_list (fun j om' oe' ox' n =>
                   g_message fi (Some om) (path ++ [3%Z; zn j]) (join_scope scope name) om' oe' ox' n)
                j (S om) oe ox ns')) as G.
    2: { apply G; [intros k n H; exact H|exact IH]. }
    clear IH. intros j om0 oe0 ox0 ns'. generalize (S om0) as om1. revert j oe0 ox0.
    induction ns' as [|n ns' IHn]; intros j oe0 ox0 om1 Hsub HA; cbn [g_list]; [constructor|].
    inversion HA as [|x l Hx Hl]; subst. apply Forall_app. split.
    + apply Hx; [exact HF|]. apply (placed_nested _ _ m); [exact Hp|].
      specialize (Hsub O n eq_refl). rewrite Nat.add_0_r in Hsub. exact Hsub.
    + apply IHn; [|exact Hl]. intros k n' Hk. specialize (Hsub (S k) n' Hk).
      replace (S j + k)%nat with (j + S k)%nat by lia. exact Hsub.
  - apply Forall_concat. apply Forall_forall. intros l Hl. apply mapi_in_nth in Hl.
    destruct Hl as [n [a [-> Ha]]]. constructor.
    + exists f. split; [exact HF|]. exact (placed_enum _ _ _ _ _ Hp Ha).
    + apply Forall_forall. intros e He. apply in_mapi in He. destruct He as [k [b [-> _]]]. exists f. exact HF.
  - apply Forall_forall. intros e He. apply mapi_in_nth in He. destruct He as [n [a [-> Ha]]].
    assert (find_message_field (DP name fs xs ns es r os me rv) [6%Z; zn (0 + n)] = Some a) as E.
    { cbn [find_message_field Z.eqb Pos.eqb]. rewrite zn_nat. exact Ha. }
    exists f. split; [exact HF|]. split; [|exact (placed_place _ _ _ _ _ Hp E)].
    destruct Hp as [_ [_ [_ H4]]]. rewrite H4. exact E.
Qed.

Lemma g_file_located F o f : F (of_file o) = Some f -> Forall (located F) (g_file o f).
Proof.
  intros HF. unfold g_file. constructor; [exact HF|].
  apply Forall_app; split; [|apply Forall_app; split; [|apply Forall_app; split]].
  - unfold g_messages.
    assert (forall j om oe ox ns', (forall k n, nth_error ns' k = Some n -> nth_error (fl_messages f) (j + k) = Some n) ->
      Forall (located F) (g_list (fun j om' oe' ox' n =>
                   g_message (of_file o) None ([] ++ [4%Z; zn j]) (fl_package f) om' oe' ox' n)
                j om oe ox ns')) as G.
    2: { apply G. intros k n H; exact H. }
    intros j om oe ox ns'. revert j om oe ox.
    induction ns' as [|n ns' IHn]; intros j om oe ox Hsub; cbn [g_list]; [constructor|].
    apply Forall_app. split.
    + apply (g_message_located _ f); [exact HF|]. apply placed_top.
      specialize (Hsub O n eq_refl). rewrite Nat.add_0_r in Hsub. exact Hsub.
    + apply IHn. intros k n' Hk. specialize (Hsub (S k) n' Hk).
      replace (S j + k)%nat with (j + S k)%nat by lia. exact Hsub.
  - apply Forall_concat. apply Forall_forall. intros l Hl. apply mapi_in_nth in Hl.
    destruct Hl as [n [a [-> Ha]]]. constructor.
    + exists f. split; [exact HF|]. cbn. rewrite zn_nat. exact Ha.
    + apply Forall_forall. intros e He. apply in_mapi in He. destruct He as [k [b [-> _]]]. exists f. exact HF.
  - apply Forall_concat. apply Forall_forall. intros l Hl. apply mapi_in_nth in Hl.
    destruct Hl as [n [a [-> Ha]]]. constructor.
    + exists f. exact HF.
    + apply Forall_forall. intros e He. apply mapi_in_nth in He. destruct He as [k [b [-> Hb]]].
      exists f. split; [exact HF|]. cbn. rewrite !zn_nat. cbn in Ha. rewrite Ha, Hb. reflexivity.
  - apply Forall_forall. intros e He. apply mapi_in_nth in He. destruct He as [n [a [-> Ha]]].
    exists f. split; [exact HF|]. cbn. rewrite zn_nat, Ha. auto.
Qed.

Lemma visit_located F fs : forall o,
  (forall k f, nth_error fs k = Some f -> F (of_file o + k)%nat = Some f) ->
  Forall (located F) (visit o fs).
Proof.
  intros o H. rewrite visit_eq. revert o H.
  induction fs as [|f fs IH]; intros o H; cbn [g_files]; [constructor|].
  apply Forall_app. split.
  - apply g_file_located. specialize (H O f eq_refl). rewrite Nat.add_0_r in H. exact H.
  - apply IH. intros k g Hk. specialize (H (S k) g Hk). cbn. replace (S (of_file o + k)) with (of_file o + S k)%nat by lia. exact H.
Qed.

(** which files are announced *)
Lemma visit_files_in o fs : forall path i f, In (EvFile path i f) (visit o fs) ->
  exists k, i = (of_file o + k)%nat /\ nth_error fs k = Some f.
Proof.
  intros path i f H.
  pose proof (visit_located (fun i => if (i <? of_file o)%nat then None else nth_error fs (i - of_file o)) fs o) as L.
  assert (forall k f0, nth_error fs k = Some f0 ->
            (if (of_file o + k <? of_file o)%nat then None else nth_error fs (of_file o + k - of_file o)) = Some f0) as HH.
  { intros k g Hk. destruct (Nat.ltb_spec (of_file o + k) (of_file o)); [lia|].
    replace (of_file o + k - of_file o)%nat with k by lia. exact Hk. }
  specialize (L HH). rewrite Forall_forall in L. specialize (L _ H). cbn [located] in L.
  destruct (Nat.ltb_spec i (of_file o)); [discriminate|].
  exists (i - of_file o)%nat. split; [lia|exact L].
Qed.
Lemma visit_files_all fs : forall o k f, nth_error fs k = Some f ->
  In (EvFile [] (of_file o + k)%nat f) (visit o fs).
Proof.
  intros o. rewrite visit_eq. revert o.
  induction fs as [|f fs IH]; intros o k g Hk; cbn [g_files]; [destruct k; discriminate|].
  apply in_or_app. destruct k as [|k].
  - left. inversion Hk; subst. rewrite Nat.add_0_r. left. reflexivity.
  - right. specialize (IH (off_file o f) k g Hk). cbn [off_file of_file] in IH.
    replace (of_file o + S k)%nat with (S (of_file o) + k)%nat by lia. exact IH.
Qed.
