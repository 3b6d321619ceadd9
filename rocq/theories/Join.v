(** One call or two: lemmas behind C64.  The names phase of later files does
    not look at what the earlier files resolved to ([names_graft]); the resolve
    phase of earlier files is not disturbed by the names of later files
    ([resolve_ahead]), as long as their references are absolute or have one
    part. *)
From Verif Require Import Base BaseProofs Value Descr Proto Build VisitProofs EventProofs BuildFrame BuildNames BuildQuiet BuildResolve.
From Coq Require Import List Lia Bool Arith.
Import ListNotations.
Local Open Scope list_scope.
Local Open Scope N_scope.

(** ** Lists *)
Lemma upd_app_l {A} i (g : A -> A) l t : (i < length l)%nat -> upd i g (l ++ t) = upd i g l ++ t.
Proof. revert i. induction l as [|a l IH]; intros [|i] H; cbn in *; try lia; [reflexivity|]. rewrite IH by lia. reflexivity. Qed.
Lemma upd_app_r {A} i (g : A -> A) l t : (length l <= i)%nat -> upd i g (l ++ t) = l ++ upd (i - length l) g t.
Proof. revert i. induction l as [|a l IH]; intros i H; cbn in *; [rewrite Nat.sub_0_r; reflexivity|]. destruct i; [lia|]. cbn. rewrite IH by lia. reflexivity. Qed.
Lemma skipn_upd {A} n i (g : A -> A) (l : list A) : (n <= i)%nat -> skipn n (upd i g l) = upd (i - n) g (skipn n l).
Proof.
  revert n i. induction l as [|a l IH]; intros [|n] i H; cbn [skipn upd]; rewrite ?Nat.sub_0_r; try reflexivity.
  - destruct i; [lia|]; destruct (S i - S n)%nat; reflexivity.
  - destruct i; [lia|]. cbn [upd skipn Nat.sub]. apply IH. lia.
Qed.
Lemma skipn_app_le {A} n (l t : list A) : (n <= length l)%nat -> skipn n (l ++ t) = skipn n l ++ t.
Proof. intros H. rewrite skipn_app. replace (n - length l)%nat with 0%nat by lia. reflexivity. Qed.
Lemma nth_skip {A} n i (l : list A) : (n <= i)%nat -> nth_error (skipn n l) (i - n) = nth_error l i.
Proof.
  revert n i. induction l as [|a l IH]; intros [|n] i H; cbn [skipn]; rewrite ?Nat.sub_0_r; try reflexivity.
  - destruct (i - S n)%nat, i; reflexivity.
  - destruct i; [lia|]. cbn [Nat.sub nth_error]. apply IH. lia.
Qed.

(** ** The names phase of later files *)

(** [q] with its oldest entries replaced by those of [b] *)
Definition graft (b q : pool) : pool :=
  Pool (p_names q) (p_file_names q)
       (p_files b ++ skipn (length (p_files b)) (p_files q))
       (p_messages b ++ skipn (length (p_messages b)) (p_messages q))
       (p_enums b ++ skipn (length (p_enums b)) (p_enums q))
       (p_exts b) (p_services b).
Definition wide (b q : pool) : Prop :=
  (length (p_files b) <= length (p_files q) /\ length (p_messages b) <= length (p_messages q)
   /\ length (p_enums b) <= length (p_enums q))%nat.
Definition vgraft (b : pool) (v : vst) : vst := V (graft b (v_pool v)) (v_errs v).
Definition rmap {A B} (g : A -> B) (r : res A) : res B := rbind r (fun a => Ok (g a)).
(** the event is about a new file, message or enum *)
Definition beyond (b : pool) (e : event) : Prop :=
  match e with
  | EvFile _ i _ => True
  | EvMessage _ _ f _ _ _ | EvEnum _ _ f _ _ _ => (length (p_files b) <= f)%nat
  | EvOneof _ _ _ m _ _ => (length (p_messages b) <= m)%nat
  | EvEnumValue _ _ _ e _ _ => (length (p_enums b) <= e)%nat
  | _ => True
  end.

Section Graft.
Context (b : pool).

Lemma len_files q : wide b q -> length (p_files (graft b q)) = length (p_files q).
Proof. intros W. cbn. rewrite app_length, skipn_length. destruct W. lia. Qed.
Lemma len_messages q : wide b q -> length (p_messages (graft b q)) = length (p_messages q).
Proof. intros W. cbn. rewrite app_length, skipn_length. destruct W as (_ & ? & _). lia. Qed.
Lemma len_enums q : wide b q -> length (p_enums (graft b q)) = length (p_enums q).
Proof. intros W. cbn. rewrite app_length, skipn_length. destruct W as (_ & _ & ?). lia. Qed.

Lemma forallb_label q ls : wide b q -> forallb (label_ok (graft b q)) ls = forallb (label_ok q) ls.
Proof.
  intros W. induction ls as [|a ls IH]; [reflexivity|]. cbn [forallb]. rewrite IH. unfold label_ok. rewrite len_files by exact W. reflexivity.
Qed.
Lemma push_graft ls e v : wide b (v_pool v) -> push_err ls e (vgraft b v) = rmap (vgraft b) (push_err ls e v).
Proof.
  intros W. unfold push_err. cbn [vgraft v_pool]. rewrite forallb_label by exact W. destruct (forallb _ _); reflexivity.
Qed.
Lemma add_name_graft f n path k v : wide b (v_pool v) ->
  add_name f n path k (vgraft b v) = rmap (vgraft b) (add_name f n path k v).
Proof.
  intros W. unfold add_name. cbn [vgraft v_pool graft p_names].
  destruct (assoc_s n (p_names (v_pool v))) as [d|]; [|reflexivity].
  destruct (is_package k && is_package (d_kind d)); [reflexivity|]. apply push_graft. exact W.
Qed.
Lemma wide_same q q' : p_files q' = p_files q -> p_messages q' = p_messages q -> p_enums q' = p_enums q -> wide b q -> wide b q'.
Proof. unfold wide. intros -> -> ->. auto. Qed.
Lemma wide_add_name f n path k v v' : wide b (v_pool v) -> add_name f n path k v = Ok v' -> wide b (v_pool v').
Proof. intros W H. apply add_name_pool in H. destruct H as [->|(_ & _ & ->)]; exact W. Qed.
Lemma rmap_bind {A B C} (g : A -> B) (r : res A) (k : B -> res C) : rbind (rmap g r) k = rbind r (fun a => k (g a)).
Proof. destruct r; reflexivity. Qed.
Lemma bind_rmap {A B C} (g : B -> C) (r : res A) (k : A -> res B) : rmap g (rbind r k) = rbind r (fun a => rmap g (k a)).
Proof. destruct r; reflexivity. Qed.
Lemma rbind_ext {A B} (r : res A) (k k' : A -> res B) : (forall a, r = Ok a -> k a = k' a) -> rbind r k = rbind r k'.
Proof. destruct r; cbn; auto. Qed.

Lemma pkgs_graft i path l : forall v, wide b (v_pool v) ->
  fold_res (fun pre => add_name i pre path DPackage) l (vgraft b v)
  = rmap (vgraft b) (fold_res (fun pre => add_name i pre path DPackage) l v).
Proof.
  induction l as [|a l IH]; intros v W; [reflexivity|]. cbn [fold_res].
  rewrite add_name_graft, rmap_bind, bind_rmap by exact W. apply rbind_ext. intros v' H. apply IH.
  exact (wide_add_name _ _ _ _ _ _ W H).
Qed.
Lemma wide_pkgs i path l v v' : wide b (v_pool v) ->
  fold_res (fun pre => add_name i pre path DPackage) l v = Ok v' -> wide b (v_pool v').
Proof.
  apply (fold_res_inv (fun v => wide b (v_pool v))). intros a s s' _ W H. exact (wide_add_name _ _ _ _ _ _ W H).
Qed.
Lemma camel_graft f fs : forall i seen v, wide b (v_pool v) ->
  check_camel f i seen fs (vgraft b v) = rmap (vgraft b) (check_camel f i seen fs v).
Proof.
  induction fs as [|fd fs IH]; intros i seen v W; [reflexivity|]. cbn [check_camel].
  cbv zeta. destruct (existsb (bytes_eqb (to_lower_without_underscores (fp_name fd))) seen); [|apply IH; exact W].
  rewrite push_graft, rmap_bind, bind_rmap by exact W. apply rbind_ext. intros v' H. apply IH.
  rewrite (push_err_pool _ _ _ _ H). exact W.
Qed.

Lemma assert_graft c v : assert c (vgraft b v) = rmap (vgraft b) (assert c v).
Proof. destruct c; reflexivity. Qed.
Lemma wide_assert c v v' : wide b (v_pool v) -> assert c v = Ok v' -> wide b (v_pool v').
Proof. intros W H. apply assert_ok in H. destruct H as [-> _]. exact W. Qed.
Lemma at_graft {A} (l0 l : list A) i : (length l0 <= i)%nat -> at_ (l0 ++ skipn (length l0) l) i = at_ l i.
Proof. intros H. unfold at_. rewrite nth_error_app2, nth_skip by exact H. reflexivity. Qed.

Lemma file_graft path index f v : wide b (v_pool v) ->
  names_file path index f (vgraft b v) = rmap (vgraft b) (names_file path index f v).
Proof.
  intros W. unfold names_file. cbn [vgraft v_pool]. rewrite len_files by exact W.
  change (V (graft b (v_pool v)) (v_errs v)) with (vgraft b v).
  rewrite assert_graft, rmap_bind, bind_rmap. apply rbind_ext. intros v1 H1.
  assert (wide b (v_pool v1)) as W1 by exact (wide_assert _ _ _ W H1). clear v W H1.
  destruct (file_syntax f) as [sy|]; [|apply push_graft; exact W1].
  set (g := fun p => set_files (assoc_put (fl_name f) index (p_file_names p)) (p_files p) p).
  change (on_pool g (vgraft b v1)) with (vgraft b (on_pool g v1)).
  cbn [vgraft v_pool graft p_file_names].
  change (V (graft b (v_pool (on_pool g v1))) (v_errs (on_pool g v1))) with (vgraft b (on_pool g v1)).
  assert (wide b (v_pool (on_pool g v1))) as W2 by exact W1.
  destruct (assoc_s (fl_name f) (p_file_names (v_pool v1))).
  - rewrite push_graft, rmap_bind, bind_rmap by exact W2. apply rbind_ext. intros v2 H2.
    assert (wide b (v_pool v2)) as W3 by (rewrite (push_err_pool _ _ _ _ H2); exact W2).
    clearbody g. clear v1 W1 W2 H2.
    set (k := fun p => set_files (p_file_names p) (p_files p ++ [FileI sy f [] []]) p).
    assert (on_pool k (vgraft b v2) = vgraft b (on_pool k v2)) as ->.
    { unfold on_pool, vgraft, k, set_files, graft. cbn. rewrite skipn_app_le, app_assoc by apply W3. reflexivity. }
    assert (wide b (v_pool (on_pool k v2))) as W4.
    { unfold wide in *. cbn. rewrite app_length. cbn. lia. }
    destruct (fl_package f); [reflexivity|]. rewrite pkgs_graft, rmap_bind, bind_rmap by exact W4.
    apply rbind_ext. intros v3 H3. apply add_name_graft. exact (wide_pkgs _ _ _ _ _ W4 H3).
  - cbn [rbind].
    assert (forall v2, wide b (v_pool v2) ->
      (let v := on_pool (fun p => set_files (p_file_names p) (p_files p ++ [FileI sy f [] []]) p) (vgraft b v2) in
       match fl_package f with
       | [] => Ok v
       | pkg => let! v := fold_res (fun pre => add_name index pre (path ++ [2%Z]) DPackage) (before_dots [] pkg) v in
                add_name index pkg (path ++ [2%Z]) DPackage v
       end) =
      rmap (vgraft b) (let v := on_pool (fun p => set_files (p_file_names p) (p_files p ++ [FileI sy f [] []]) p) v2 in
       match fl_package f with
       | [] => Ok v
       | pkg => let! v := fold_res (fun pre => add_name index pre (path ++ [2%Z]) DPackage) (before_dots [] pkg) v in
                add_name index pkg (path ++ [2%Z]) DPackage v
       end)) as G; [|exact (G (on_pool g v1) W2)].
    clear. intros v2 W3.
    set (k := fun p => set_files (p_file_names p) (p_files p ++ [FileI sy f [] []]) p).
    assert (on_pool k (vgraft b v2) = vgraft b (on_pool k v2)) as ->.
    { unfold on_pool, vgraft, k, set_files, graft. cbn. rewrite skipn_app_le, app_assoc by apply W3. reflexivity. }
    assert (wide b (v_pool (on_pool k v2))) as W4.
    { unfold wide in *. cbn. rewrite app_length. cbn. lia. }
    cbv zeta. destruct (fl_package f); [reflexivity|]. rewrite pkgs_graft, rmap_bind, bind_rmap by exact W4.
    apply rbind_ext. intros v3 H3. apply add_name_graft. exact (wide_pkgs _ _ _ _ _ W4 H3).
Qed.

Lemma message_graft path full f parent index m v : wide b (v_pool v) -> (length (p_files b) <= f)%nat ->
  names_message path full f parent index m (vgraft b v) = rmap (vgraft b) (names_message path full f parent index m v).
Proof.
  intros W L. unfold names_message. rewrite add_name_graft, rmap_bind, bind_rmap by exact W. apply rbind_ext. intros v1 H1.
  assert (wide b (v_pool v1)) as W1 by exact (wide_add_name _ _ _ _ _ _ W H1).
  change (v_pool (vgraft b v1)) with (graft b (v_pool v1)). rewrite len_messages by exact W1.
  rewrite assert_graft, rmap_bind, bind_rmap. apply rbind_ext. intros v2 H2.
  assert (wide b (v_pool v2)) as W2 by exact (wide_assert _ _ _ W1 H2).
  set (mi := MessageI _ _ _ _ _ _ _ _ _). set (k := fun p => set_messages (p_messages p ++ [mi]) p).
  assert (on_pool k (vgraft b v2) = vgraft b (on_pool k v2)) as ->.
  { unfold on_pool, vgraft, k, set_messages, graft. cbn. rewrite skipn_app_le, app_assoc by apply W2. reflexivity. }
  assert (wide b (v_pool (on_pool k v2))) as W4.
  { unfold wide in *. cbn. rewrite app_length. cbn. lia. }
  cbv zeta. set (v3 := on_pool k v2) in *. clearbody v3.
  change (p_files (v_pool (vgraft b v3))) with (p_files b ++ skipn (length (p_files b)) (p_files (v_pool v3))).
  rewrite at_graft by exact L. rewrite bind_rmap. apply rbind_ext. intros fi _.
  destruct (fi_syntax fi); [reflexivity|]. apply camel_graft. exact W4.
Qed.
Lemma oneof_graft path full f message index n v : wide b (v_pool v) -> (length (p_messages b) <= message)%nat ->
  names_oneof path full f message index n (vgraft b v) = rmap (vgraft b) (names_oneof path full f message index n v).
Proof.
  intros W L. unfold names_oneof. rewrite add_name_graft, rmap_bind, bind_rmap by exact W. apply rbind_ext. intros v1 H1.
  assert (wide b (v_pool v1)) as W1 by exact (wide_add_name _ _ _ _ _ _ W H1).
  change (p_messages (v_pool (vgraft b v1))) with (p_messages b ++ skipn (length (p_messages b)) (p_messages (v_pool v1))).
  rewrite at_graft by exact L. rewrite bind_rmap. apply rbind_ext. intros m _.
  rewrite assert_graft, rmap_bind, bind_rmap. apply rbind_ext. intros v2 H2. cbn [rmap rbind]. f_equal.
  unfold on_pool, vgraft, set_messages, graft. cbn. rewrite upd_app_r, skipn_upd by exact L. reflexivity.
Qed.
Lemma enum_graft path full f parent index en v : wide b (v_pool v) -> (length (p_files b) <= f)%nat ->
  names_enum path full f parent index en (vgraft b v) = rmap (vgraft b) (names_enum path full f parent index en v).
Proof.
  intros W L. unfold names_enum. rewrite add_name_graft, rmap_bind, bind_rmap by exact W. apply rbind_ext. intros v1 H1.
  assert (wide b (v_pool v1)) as W1 by exact (wide_add_name _ _ _ _ _ _ W H1).
  assert (forall v2, wide b (v_pool v2) ->
    (let! v := assert (length (p_enums (v_pool (vgraft b v2))) =? index)%nat (vgraft b v2) in
     let ei := EnumI (mk_id f path full (ep_name en)) parent [] [] [] (allow_alias en) in
     Ok (on_pool (fun p => set_enums (p_enums p ++ [ei]) p) v)) =
    rmap (vgraft b) (let! v := assert (length (p_enums (v_pool v2)) =? index)%nat v2 in
     let ei := EnumI (mk_id f path full (ep_name en)) parent [] [] [] (allow_alias en) in
     Ok (on_pool (fun p => set_enums (p_enums p ++ [ei]) p) v))) as K.
  { intros v2 W2. change (v_pool (vgraft b v2)) with (graft b (v_pool v2)). rewrite len_enums by exact W2.
    rewrite assert_graft, rmap_bind, bind_rmap. apply rbind_ext. intros v3 H3. cbn [rmap rbind]. f_equal.
    apply (wide_assert _ _ _ W2) in H3. unfold on_pool, vgraft, set_enums, graft. cbn. rewrite skipn_app_le, app_assoc by apply H3. reflexivity. }
  destruct (ep_values en) as [|first r].
  - rewrite push_graft, rmap_bind, bind_rmap by exact W1. apply rbind_ext. intros v2 H2. apply K.
    rewrite (push_err_pool _ _ _ _ H2). exact W1.
  - change (p_files (v_pool (vgraft b v1))) with (p_files b ++ skipn (length (p_files b)) (p_files (v_pool v1))).
    rewrite at_graft by exact L.
    destruct (at_ (p_files (v_pool v1)) f) as [fi| | |]; try reflexivity. cbn [rbind].
    destruct (fi_syntax fi); [apply (K v1 W1)|]. destruct (snd first =? 0)%Z; [apply (K v1 W1)|].
    rewrite push_graft, rmap_bind, bind_rmap by exact W1. apply rbind_ext. intros v2 H2. apply K.
    rewrite (push_err_pool _ _ _ _ H2). exact W1.
Qed.
Lemma enum_value_graft path full f enum index x v : wide b (v_pool v) -> (length (p_enums b) <= enum)%nat ->
  names_enum_value path full f enum index x (vgraft b v) = rmap (vgraft b) (names_enum_value path full f enum index x v).
Proof.
  intros W L. unfold names_enum_value. rewrite add_name_graft, rmap_bind, bind_rmap by exact W. apply rbind_ext. intros v1 H1.
  assert (wide b (v_pool v1)) as W1 by exact (wide_add_name _ _ _ _ _ _ W H1).
  change (p_enums (v_pool (vgraft b v1))) with (p_enums b ++ skipn (length (p_enums b)) (p_enums (v_pool v1))).
  rewrite at_graft by exact L. rewrite bind_rmap. apply rbind_ext. intros m _.
  rewrite assert_graft, rmap_bind, bind_rmap. apply rbind_ext. intros v2 H2. cbn [rmap rbind]. f_equal.
  unfold on_pool, vgraft, set_enums, graft. cbn. rewrite upd_app_r, skipn_upd by exact L. reflexivity.
Qed.
Lemma step_graft e v : wide b (v_pool v) -> beyond b e ->
  names_step e (vgraft b v) = rmap (vgraft b) (names_step e v).
Proof.
  intros W L. destruct e; cbn [names_step]; auto using file_graft, message_graft, oneof_graft, enum_graft, enum_value_graft, add_name_graft.
Qed.
Lemma wide_file path index f v v' : wide b (v_pool v) -> names_file path index f v = Ok v' -> wide b (v_pool v').
Proof.
  intros W H. unfold names_file in H. apply rbind_ok in H. destruct H as (v1 & H1 & H). apply (wide_assert _ _ _ W) in H1.
  destruct (file_syntax f) as [sy|]; [|rewrite (push_err_pool _ _ _ _ H); exact H1].
  apply rbind_ok in H. destruct H as (v2 & H2 & H).
  assert (wide b (v_pool v2)) as W2.
  { destruct (assoc_s _ _); [rewrite (push_err_pool _ _ _ _ H2); exact H1|]. apply Ok_inj in H2. subst v2. exact H1. }
  set (v3 := on_pool _ v2) in H. assert (wide b (v_pool v3)) as W3.
  { unfold wide in *. cbn. rewrite app_length. cbn. lia. }
  clearbody v3. destruct (fl_package f); [apply Ok_inj in H; subst; exact W3|].
  apply rbind_ok in H. destruct H as (v4 & H4 & H). exact (wide_add_name _ _ _ _ _ _ (wide_pkgs _ _ _ _ _ W3 H4) H).
Qed.
Lemma wide_step e v v' : wide b (v_pool v) -> names_step e v = Ok v' -> wide b (v_pool v').
Proof.
  intros W H. destruct e; cbn [names_step] in H; try exact (wide_add_name _ _ _ _ _ _ W H); [exact (wide_file _ _ _ _ _ W H)|..].
  - unfold names_message in H. apply rbind_ok in H. destruct H as (v1 & H1 & H). apply (wide_add_name _ _ _ _ _ _ W) in H1.
    apply rbind_ok in H. destruct H as (v2 & H2 & H). apply (wide_assert _ _ _ H1) in H2.
    apply rbind_ok in H. destruct H as (fi & _ & H).
    destruct (fi_syntax fi); [apply Ok_inj in H; subst v'|apply check_camel_pool in H; rewrite H];
      unfold wide in *; cbn; rewrite app_length; cbn; lia.
  - unfold names_oneof in H. apply rbind_ok in H. destruct H as (v1 & H1 & H). apply (wide_add_name _ _ _ _ _ _ W) in H1.
    apply rbind_ok in H. destruct H as (fi & _ & H). apply rbind_ok in H. destruct H as (v2 & H2 & H). apply (wide_assert _ _ _ H1) in H2.
    apply Ok_inj in H. subst v'. unfold wide in *. cbn. rewrite upd_length. lia.
  - unfold names_enum in H. apply rbind_ok in H. destruct H as (v1 & H1 & H). apply (wide_add_name _ _ _ _ _ _ W) in H1.
    apply rbind_ok in H. destruct H as (v2 & H2 & H). assert (wide b (v_pool v2)) as W2.
    { destruct (ep_values e); [rewrite (push_err_pool _ _ _ _ H2); exact H1|].
      apply rbind_ok in H2. destruct H2 as (fi & _ & H2). destruct (fi_syntax fi); [apply Ok_inj in H2; subst; exact H1|].
      destruct (_ =? 0)%Z; [apply Ok_inj in H2; subst; exact H1|]. rewrite (push_err_pool _ _ _ _ H2); exact H1. }
    apply rbind_ok in H. destruct H as (v3 & H3 & H). apply (wide_assert _ _ _ W2) in H3.
    apply Ok_inj in H. subst v'. unfold wide in *. cbn. rewrite app_length. cbn. lia.
  - unfold names_enum_value in H. apply rbind_ok in H. destruct H as (v1 & H1 & H). apply (wide_add_name _ _ _ _ _ _ W) in H1.
    apply rbind_ok in H. destruct H as (fi & _ & H). apply rbind_ok in H. destruct H as (v2 & H2 & H). apply (wide_assert _ _ _ H1) in H2.
    apply Ok_inj in H. subst v'. unfold wide in *. cbn. rewrite upd_length. lia.
Qed.
Lemma names_graft es : Forall (beyond b) es -> forall v, wide b (v_pool v) ->
  fold_res names_step es (vgraft b v) = rmap (vgraft b) (fold_res names_step es v).
Proof.
  induction 1 as [|e es He _ IH]; intros v W; [reflexivity|]. cbn [fold_res].
  rewrite step_graft, rmap_bind, bind_rmap by assumption. apply rbind_ext. intros v' H. apply IH. exact (wide_step _ _ _ W H).
Qed.
End Graft.
