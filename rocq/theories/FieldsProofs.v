(** Laws of the field set and of the DynamicMessage accessors. *)
From Verif Require Import Base BaseProofs Wire WireProofs Unknown UnknownProofs Value Descr Fields
  DescrOk DescrProofs.

(** [k] is another member of [f]'s oneof. *)
Definition sibling (f : fdl) (k : N) : Prop :=
  exists nums, fd_oneof f = Some nums /\ In k nums /\ k <> fd_number f.

Lemma clear_fold_get {V} (n0 : N) nums : forall (fs : list (N * slot V)) k,
  bt_get k (fold_left (fun acc n => if n =? n0 then acc else bt_remove n acc) nums fs) =
  if existsb (fun n => (n =? k) && negb (n =? n0)) nums then None else bt_get k fs.
Proof.
  induction nums as [|n nums IH]; intros fs k; cbn [fold_left existsb]; [reflexivity|].
  rewrite IH. destruct (n =? n0) eqn:E0; cbn [negb andb].
  - rewrite andb_false_r. reflexivity.
  - rewrite andb_true_r. destruct (n =? k) eqn:Ek; cbn [orb].
    + assert (n = k) by lia. subst n. rewrite bt_get_remove_same. now destruct (existsb _ nums).
    + rewrite bt_get_remove_other by lia. reflexivity.
Qed.

Definition siblingb (f : fdl) (k : N) : bool :=
  match fd_oneof f with
  | None => false
  | Some nums => existsb (fun n => (n =? k) && negb (n =? fd_number f)) nums
  end.
Lemma siblingb_ok f k : siblingb f k = true <-> sibling f k.
Proof.
  unfold siblingb, sibling. destruct (fd_oneof f) as [nums|].
  - rewrite existsb_exists. split.
    + intros (x & Hx & E). exists nums. split; [reflexivity|].
      assert (x = k) by lia. subst x. split; [exact Hx|lia].
    + intros (l & [= <-] & Hin & Hne). exists k. split; [exact Hin|]. rewrite N.eqb_refl. lia.
  - split; [discriminate|]. intros (l & E & _). discriminate.
Qed.
Lemma siblingb_nok f k : siblingb f k = false <-> ~ sibling f k.
Proof.
  rewrite <- siblingb_ok. destruct (siblingb f k); split; congruence.
Qed.

Lemma clear_oneof_get f fs k :
  bt_get k (fs_clear_oneof f fs) = if siblingb f k then None else bt_get k fs.
Proof.
  unfold fs_clear_oneof, siblingb. destruct (fd_oneof f) as [nums|]; [|reflexivity].
  apply clear_fold_get.
Qed.

Lemma siblingb_self f : siblingb f (fd_number f) = false.
Proof.
  apply siblingb_nok. intros (l & _ & _ & H). congruence.
Qed.

Lemma clear_oneof_sorted f fs : bt_sorted fs -> bt_sorted (fs_clear_oneof f fs).
Proof.
  unfold fs_clear_oneof. destruct (fd_oneof f) as [nums|]; [|auto].
  revert fs. induction nums as [|n nums IH]; intros fs H; cbn [fold_left]; [exact H|].
  apply IH. destruct (n =? fd_number f); [exact H|now apply bt_remove_sorted].
Qed.

(** ** The slot stored under a number after each operation *)
Lemma set_get f v fs k :
  bt_get k (fs_set f v fs) =
  if k =? fd_number f then Some (SVal v)
  else if siblingb f k then None else bt_get k fs.
Proof.
  unfold fs_set. destruct (k =? fd_number f) eqn:E.
  - assert (k = fd_number f) by lia. subst k. apply bt_get_set_same.
  - rewrite bt_get_set_other by lia. apply clear_oneof_get.
Qed.

Lemma get_mut_get t f fs k :
  bt_get k (fs_get_mut t f fs) =
  if k =? fd_number f then Some (SVal (fs_get t f fs))
  else if siblingb f k then None else bt_get k fs.
Proof.
  unfold fs_get_mut, fs_get, fs_get_value.
  assert (E0 : bt_get (fd_number f) (fs_clear_oneof f fs) = bt_get (fd_number f) fs)
    by (rewrite clear_oneof_get, siblingb_self; reflexivity).
  rewrite E0. destruct (k =? fd_number f) eqn:E.
  - assert (k = fd_number f) by lia. subst k.
    destruct (bt_get (fd_number f) fs) as [[|v|us]|] eqn:Eb;
      try (rewrite bt_get_set_same; reflexivity). exact E0.
  - destruct (bt_get (fd_number f) fs) as [[|v|us]|] eqn:Eb;
      rewrite ?bt_get_set_other by lia; apply clear_oneof_get.
Qed.

Lemma get_mut_sorted t f fs : bt_sorted fs -> bt_sorted (fs_get_mut t f fs).
Proof.
  intros H. unfold fs_get_mut. apply (clear_oneof_sorted f) in H.
  destruct (bt_get (fd_number f) (fs_clear_oneof f fs)) as [[| |]|];
    auto; now apply bt_set_sorted.
Qed.
Lemma set_sorted f v fs : bt_sorted fs -> bt_sorted (fs_set f v fs).
Proof. intros H. unfold fs_set. now apply bt_set_sorted, clear_oneof_sorted. Qed.
Lemma put_sorted f v fs : bt_sorted fs -> bt_sorted (fs_put f v fs).
Proof. intros H. unfold fs_put. now apply bt_set_sorted. Qed.
Lemma add_unknown_sorted n u fs fs' :
  bt_sorted fs -> fs_add_unknown n u fs = Ok fs' -> bt_sorted fs'.
Proof.
  intros H. unfold fs_add_unknown. destruct (bt_get n fs) as [[|v|us]|]; try discriminate.
  all: intros [= <-]; now apply bt_set_sorted.
Qed.

Lemma field_mut_get t m f g k :
  bt_get k (dm_fields (field_mut t m f g)) =
  if k =? fd_number f then Some (SVal (g (get_field_value t m f)))
  else if siblingb f k then None else bt_get k (dm_fields m).
Proof.
  unfold field_mut, fs_put. cbn [dm_fields with_fields].
  assert (E1 : fs_get t f (fs_get_mut t f (dm_fields m)) = get_field_value t m f).
  { unfold get_field_value at 1. unfold fs_get at 1, fs_get_value. rewrite get_mut_get, N.eqb_refl.
    reflexivity. }
  rewrite E1. destruct (k =? fd_number f) eqn:E.
  - assert (k = fd_number f) by lia. subst k. apply bt_get_set_same.
  - rewrite bt_get_set_other by lia. rewrite get_mut_get, E. reflexivity.
Qed.

(** has and get only look at the slot of the field *)
Lemma has_slot t f fs1 fs2 :
  bt_get (fd_number f) fs1 = bt_get (fd_number f) fs2 -> fs_has t f fs1 = fs_has t f fs2.
Proof. unfold fs_has, fs_get_value. now intros ->. Qed.
Lemma get_slot t f fs1 fs2 :
  bt_get (fd_number f) fs1 = bt_get (fd_number f) fs2 -> fs_get t f fs1 = fs_get t f fs2.
Proof. unfold fs_get, fs_get_value. now intros ->. Qed.

(** ** C13 *)

(** [untouched f m m']: nothing but [f] and its oneof siblings differs. *)
Definition untouched (t : tables) (f : fdl) (m m' : dynmsg) : Prop :=
  dm_desc m' = dm_desc m /\
  (forall k, k <> fd_number f -> ~ sibling f k -> bt_get k (dm_fields m') = bt_get k (dm_fields m)) /\
  (forall g, fd_number g <> fd_number f -> ~ sibling f (fd_number g) ->
     has_field t m' g = has_field t m g /\ get_field_value t m' g = get_field_value t m g).

Lemma untouched_intro t f m m' :
  dm_desc m' = dm_desc m ->
  (forall k, k <> fd_number f -> ~ sibling f k -> bt_get k (dm_fields m') = bt_get k (dm_fields m)) ->
  untouched t f m m'.
Proof.
  intros Hd H. split; [exact Hd|]. split; [exact H|]. intros g H1 H2.
  unfold has_field, get_field_value. split.
  - apply has_slot, H; assumption.
  - apply get_slot, H; assumption.
Qed.

Lemma set_ext_laws t m f v m' :
  set_extension m f v = m' ->
  get_field_value t m' f = v /\
  (has_field t m' f = true <-> fd_presence f = true \/ is_default_for t f v = false) /\
  (forall g, sibling f (fd_number g) ->
     has_field t m' g = false /\ get_field_value t m' g = fd_default_value t g) /\
  untouched t f m m'.
Proof.
  unfold set_extension. intros <-.
  repeat split.
  - unfold get_field_value, fs_get, fs_get_value, with_fields. cbn [dm_fields].
    rewrite set_get, N.eqb_refl. reflexivity.
  - unfold has_field, fs_has, fs_get_value, with_fields. cbn [dm_fields].
    rewrite set_get, N.eqb_refl. unfold fd_has. destruct (fd_presence f); [auto|].
    cbn. rewrite negb_true_iff. auto.
  - unfold has_field, fs_has, fs_get_value, with_fields. cbn [dm_fields].
    rewrite set_get, N.eqb_refl. unfold fd_has.
    intros [->|H]; [reflexivity|]. rewrite H. now rewrite orb_true_r.
  - unfold has_field, fs_has, fs_get_value, with_fields. cbn [dm_fields]. rewrite set_get.
    destruct H as (nums & H1 & H2 & H3).
    replace (fd_number g =? fd_number f) with false by lia.
    replace (siblingb f (fd_number g)) with true; [reflexivity|].
    symmetry. apply siblingb_ok. exists nums. auto.
  - unfold get_field_value, fs_get, fs_get_value, with_fields. cbn [dm_fields]. rewrite set_get.
    destruct H as (nums & H1 & H2 & H3).
    replace (fd_number g =? fd_number f) with false by lia.
    replace (siblingb f (fd_number g)) with true; [reflexivity|].
    symmetry. apply siblingb_ok. exists nums. auto.
  - intros k Hk Hs. cbn [dm_fields with_fields]. rewrite set_get.
    replace (k =? fd_number f) with false by lia.
    apply siblingb_nok in Hs. now rewrite Hs.
  - apply (has_slot t). cbn [dm_fields with_fields]. rewrite set_get.
    replace (fd_number g =? fd_number f) with false by lia.
    apply siblingb_nok in H0. now rewrite H0.
  - apply (get_slot t). cbn [dm_fields with_fields]. rewrite set_get.
    replace (fd_number g =? fd_number f) with false by lia.
    apply siblingb_nok in H0. now rewrite H0.
Qed.
Lemma set_laws t m f v m' :
  try_set_field t m f v = (None, m') ->
  get_field_value t m' f = v /\
  (has_field t m' f = true <-> fd_presence f = true \/ is_default_for t f v = false) /\
  (forall g, sibling f (fd_number g) ->
     has_field t m' g = false /\ get_field_value t m' g = fd_default_value t g) /\
  untouched t f m m'.
Proof.
  unfold try_set_field. destruct (is_valid_for t f v); [|discriminate]. intros [= <-].
  now apply set_ext_laws.
Qed.

Lemma clear_get f fs k :
  bt_get k (fs_clear f fs) = if k =? fd_number f then None else bt_get k fs.
Proof.
  unfold fs_clear. destruct (k =? fd_number f) eqn:E.
  - assert (k = fd_number f) by lia. subst k. apply bt_get_remove_same.
  - apply bt_get_remove_other. lia.
Qed.

Lemma clear_laws t m f :
  has_field t (clear_field m f) f = false /\
  get_field_value t (clear_field m f) f = fd_default_value t f /\
  dm_desc (clear_field m f) = dm_desc m /\
  (forall k, k <> fd_number f ->
     bt_get k (dm_fields (clear_field m f)) = bt_get k (dm_fields m)) /\
  (forall g, fd_number g <> fd_number f ->
     has_field t (clear_field m f) g = has_field t m g /\
     get_field_value t (clear_field m f) g = get_field_value t m g).
Proof.
  unfold clear_field, has_field, get_field_value. cbn [dm_fields with_fields].
  assert (G : forall k, k <> fd_number f ->
     bt_get k (fs_clear f (dm_fields m)) = bt_get k (dm_fields m)).
  { intros k Hk. rewrite clear_get. now replace (k =? fd_number f) with false by lia. }
  repeat split.
  - unfold fs_has, fs_get_value. now rewrite clear_get, N.eqb_refl.
  - unfold fs_get, fs_get_value. now rewrite clear_get, N.eqb_refl.
  - exact G.
  - now apply has_slot, G.
  - now apply get_slot, G.
Qed.

Lemma take_laws t m f o m' :
  take_field t m f = (o, m') ->
  m' = clear_field m f /\
  o = (if has_field t m f then Some (get_field_value t m f) else None).
Proof.
  unfold take_field, fs_take. intros [= <- <-]. split; [reflexivity|].
  unfold has_field, get_field_value, fs_has, fs_get, fs_get_value.
  destruct (bt_get (fd_number f) (dm_fields m)) as [[|v|us]|]; reflexivity.
Qed.

Lemma field_mut_laws t m f g :
  let m' := field_mut t m f g in
  get_field_value t m' f = g (get_field_value t m f) /\
  (has_field t m' f = fd_has t f (g (get_field_value t m f))) /\
  (forall h, sibling f (fd_number h) -> has_field t m' h = false) /\
  untouched t f m m'.
Proof.
  cbv zeta. repeat split.
  - unfold get_field_value at 1. unfold fs_get, fs_get_value. now rewrite field_mut_get, N.eqb_refl.
  - unfold has_field, fs_has, fs_get_value. now rewrite field_mut_get, N.eqb_refl.
  - intros h Hs. unfold has_field, fs_has, fs_get_value. rewrite field_mut_get.
    destruct (proj2 (siblingb_ok f (fd_number h)) Hs).
    assert (fd_number h <> fd_number f) by (destruct Hs as (l & _ & _ & H'); exact H').
    replace (fd_number h =? fd_number f) with false by lia.
    apply siblingb_ok in Hs. now rewrite Hs.
  - intros k Hk Hs. rewrite field_mut_get. replace (k =? fd_number f) with false by lia.
    apply siblingb_nok in Hs. now rewrite Hs.
  - apply (has_slot t). rewrite field_mut_get.
    replace (fd_number g0 =? fd_number f) with false by lia.
    apply siblingb_nok in H0. now rewrite H0.
  - apply (get_slot t). rewrite field_mut_get.
    replace (fd_number g0 =? fd_number f) with false by lia.
    apply siblingb_nok in H0. now rewrite H0.
Qed.

(** ** C17 *)
Lemma kind_default_sc t k :
  kind_okb t k = true -> is_msg_kind k = false -> sc_okb k (kind_default t k) = true.
Proof.
  destruct k; cbn; intros H1 H2; try discriminate; try reflexivity.
  unfold enum_default. destruct (nth_error (t_enums t) i) as [en|]; [|discriminate].
  destruct (e_values en) as [|v l]; [discriminate|]. cbn in H1. rewrite !andb_true_iff in H1. tauto.
Qed.

Lemma sc_okb_valid k v : sc_okb k v = true -> is_valid v k = true.
Proof. destruct v, k; cbn; congruence. Qed.

Lemma kind_default_valid t k : is_valid (kind_default t k) k = true.
Proof. now destruct k. Qed.

Lemma default_valid t f :
  fdl_ok t f -> fdl_shape t f -> is_valid_for t f (fd_default_value t f) = true.
Proof.
  intros Ho Hs. unfold fd_default_value.
  destruct (fd_is_list f) eqn:El; [cbn; now rewrite El|].
  destruct (fd_is_map f) eqn:Em.
  - destruct (fs_map _ _ Hs Em) as (e & kf & vf & k0 & H1 & H2 & H3 & _).
    cbn. now rewrite H1, Em, H2, H3.
  - assert (HV : forall v, is_valid v (fd_kind f) = true -> is_valid_for t f v = true).
    { intros v Hv. destruct v; cbn; auto; destruct (fd_kind f); discriminate. }
    destruct (fd_default f) as [v|] eqn:Ed.
    + apply HV, sc_okb_valid, (fo_default _ _ Ho). exact Ed.
    + apply HV, kind_default_valid.
Qed.

(** ** C14 *)
Lemma iter_fields_In t d fs f v :
  tables_ok t -> bt_sorted fs ->
  In (f, v) (fs_iter_fields t d fs) <->
  get_field t d (fd_number f) = Some f /\ fs_has t f fs = true /\ fs_get t f fs = v.
Proof.
  intros Ht Hs. unfold fs_iter_fields. rewrite in_flat_map. split.
  - intros ([n s] & Hin & Hv). cbn [snd fst] in Hv.
    destruct s as [|v0|us]; try contradiction.
    destruct (get_field t d n) as [f0|] eqn:Ef; [|contradiction].
    destruct (fd_has t f0 v0) eqn:Eh; [|contradiction].
    destruct Hv as [[= -> ->]|[]].
    pose proof (get_field_number _ _ _ _ Ht Ef) as En. subst n.
    split; [exact Ef|]. unfold fs_has, fs_get, fs_get_value.
    rewrite (bt_In_get _ _ _ Hs Hin). auto.
  - intros (Hf & Hh & Hg). unfold fs_has, fs_get, fs_get_value in *.
    destruct (bt_get (fd_number f) fs) as [[|v0|us]|] eqn:Eb; try discriminate.
    subst v0. exists (fd_number f, SVal v). split; [now apply bt_get_In|].
    cbn. rewrite Hf, Hh. now left.
Qed.

Lemma iter_ext_In t d fs f v :
  tables_ok t -> bt_sorted fs ->
  In (f, v) (fs_iter_extensions t d fs) <->
  get_ext t d (fd_number f) = Some f /\ fs_has t f fs = true /\ fs_get t f fs = v.
Proof.
  intros Ht Hs. unfold fs_iter_extensions. rewrite in_flat_map. split.
  - intros ([n s] & Hin & Hv). cbn [snd fst] in Hv.
    destruct s as [|v0|us]; try contradiction.
    destruct (get_ext t d n) as [f0|] eqn:Ef; [|contradiction].
    destruct (fd_has t f0 v0) eqn:Eh; [|contradiction].
    destruct Hv as [[= -> ->]|[]].
    pose proof (get_ext_number _ _ _ _ Ht Ef) as En. subst n.
    split; [exact Ef|]. unfold fs_has, fs_get, fs_get_value.
    rewrite (bt_In_get _ _ _ Hs Hin). auto.
  - intros (Hf & Hh & Hg). unfold fs_has, fs_get, fs_get_value in *.
    destruct (bt_get (fd_number f) fs) as [[|v0|us]|] eqn:Eb; try discriminate.
    subst v0. exists (fd_number f, SVal v). split; [now apply bt_get_In|].
    cbn. rewrite Hf, Hh. now left.
Qed.

(** strictly increasing numbers *)
Fixpoint increasing (l : list N) : Prop :=
  match l with
  | [] => True
  | a :: r => Forall (fun b => a < b) r /\ increasing r
  end.

Lemma flat_increasing {A B} (g : N * A -> list B) (num : B -> N) (l : list (N * A)) :
  bt_sorted l ->
  (forall kv, In kv l -> (length (g kv) <= 1)%nat /\ forall b, In b (g kv) -> num b = fst kv) ->
  increasing (map num (flat_map g l)).
Proof.
  intros Hs Hg. induction l as [|kv l IH]; [exact I|].
  cbn [flat_map]. rewrite map_app. destruct kv as [k a]. destruct Hs as [Hf Hs].
  assert (Hall : Forall (fun n => k < n) (map num (flat_map g l))).
  { apply Forall_forall. intros n Hn. apply in_map_iff in Hn. destruct Hn as (b & <- & Hb).
    apply in_flat_map in Hb. destruct Hb as (kv' & Hin & Hb).
    destruct (Hg kv' (or_intror Hin)) as [_ Hn']. rewrite (Hn' b Hb).
    rewrite Forall_forall in Hf. now apply Hf. }
  assert (IH' := IH Hs (fun kv' Hin => Hg kv' (or_intror Hin))).
  destruct (Hg (k, a) (or_introl eq_refl)) as [Hl Hn].
  destruct (g (k, a)) as [|b [|b' r]]; cbn in *; try lia; [exact IH'|].
  split; [|exact IH']. rewrite (Hn b (or_introl eq_refl)). exact Hall.
Qed.

Lemma iter_fields_increasing t d fs :
  tables_ok t -> bt_sorted fs ->
  increasing (map (fun fv => fd_number (fst fv)) (fs_iter_fields t d fs)).
Proof.
  intros Ht Hs. unfold fs_iter_fields. apply flat_increasing; [exact Hs|].
  intros [n s] _. cbn [snd fst]. destruct s as [|v|us]; try (split; [cbn; lia|intros b []]).
  destruct (get_field t d n) as [f|] eqn:Ef; [|split; [cbn; lia|intros b []]].
  destruct (fd_has t f v); [|split; [cbn; lia|intros b []]].
  split; [cbn; lia|]. intros b [<-|[]]. cbn. eapply get_field_number; eassumption.
Qed.
Lemma iter_ext_increasing t d fs :
  tables_ok t -> bt_sorted fs ->
  increasing (map (fun fv => fd_number (fst fv)) (fs_iter_extensions t d fs)).
Proof.
  intros Ht Hs. unfold fs_iter_extensions. apply flat_increasing; [exact Hs|].
  intros [n s] _. cbn [snd fst]. destruct s as [|v|us]; try (split; [cbn; lia|intros b []]).
  destruct (get_ext t d n) as [f|] eqn:Ef; [|split; [cbn; lia|intros b []]].
  destruct (fd_has t f v); [|split; [cbn; lia|intros b []]].
  split; [cbn; lia|]. intros b [<-|[]]. cbn. eapply get_ext_number; eassumption.
Qed.

(** draining *)
Lemma map_slot_get {V} (h : N * slot V -> N * slot V) (l : list (N * slot V)) k :
  (forall kv, fst (h kv) = fst kv) ->
  bt_get k (map h l) = match bt_get k l with Some s => Some (snd (h (k, s))) | None => None end.
Proof.
  intros Hh. induction l as [|[n s] l IH]; [reflexivity|]. cbn [map bt_get].
  specialize (Hh (n, s)) as Hn. destruct (h (n, s)) as [n' s'] eqn:E. cbn in Hn. subst n'.
  cbn [bt_get]. destruct (k =? n) eqn:Ek; [|exact IH].
  assert (k = n) by lia. subst n. now rewrite E.
Qed.
Lemma map_slot_sorted {V} (h : N * slot V -> N * slot V) (l : list (N * slot V)) :
  (forall kv, fst (h kv) = fst kv) -> bt_sorted l -> bt_sorted (map h l).
Proof.
  intros Hh. induction l as [|[n s] l IH]; [auto|]. cbn [map]. intros [Hf Hs].
  specialize (Hh (n, s)) as Hn. destruct (h (n, s)) as [n' s'] eqn:E. cbn in Hn. subst n'.
  cbn. split; [|auto]. apply Forall_forall. intros kv Hin. apply in_map_iff in Hin.
  destruct Hin as (kv0 & <- & Hin). rewrite Hh. rewrite Forall_forall in Hf. now apply Hf.
Qed.

Definition take_fields_slot (t : tables) (d : nat) (kv : N * slot value) : N * slot value :=
  match snd kv with
  | SVal v =>
      match get_field t d (fst kv) with
      | Some f => if fd_has t f v then (fst kv, Taken) else kv
      | None => kv
      end
  | _ => kv
  end.
Lemma take_fields_slot_fst t d kv : fst (take_fields_slot t d kv) = fst kv.
Proof.
  unfold take_fields_slot. destruct (snd kv); auto. destruct (get_field t d (fst kv)); auto.
  now destruct (fd_has t f v).
Qed.
Definition take_exts_slot (t : tables) (d : nat) (kv : N * slot value) : N * slot value :=
  match snd kv with
  | SVal v =>
      match get_ext t d (fst kv) with
      | Some f => if fd_has t f v then (fst kv, Taken) else kv
      | None => kv
      end
  | _ => kv
  end.
Lemma take_exts_slot_fst t d kv : fst (take_exts_slot t d kv) = fst kv.
Proof.
  unfold take_exts_slot. destruct (snd kv); auto. destruct (get_ext t d (fst kv)); auto.
  now destruct (fd_has t f v).
Qed.
Definition take_unk_slot (kv : N * slot value) : N * slot value :=
  match snd kv with SUnk _ => (fst kv, Taken) | _ => kv end.
Lemma take_unk_slot_fst kv : fst (take_unk_slot kv) = fst kv.
Proof. unfold take_unk_slot. now destruct (snd kv). Qed.

Lemma take_fields_laws t m l m' :
  wf t -> bt_sorted (dm_fields m) ->
  msg_take_fields t m = (l, m') ->
  l = msg_iter_fields t m /\ msg_iter_fields t m' = [] /\
  (forall n f, get_field t (dm_desc m) n = Some f -> has_field t m' f = false) /\
  (forall n f, get_ext t (dm_desc m) n = Some f ->
     has_field t m' f = has_field t m f /\ get_field_value t m' f = get_field_value t m f) /\
  msg_iter_extensions t m' = msg_iter_extensions t m /\
  msg_unknown_fields m' = msg_unknown_fields m.
Proof.
  intros Hw Hs. pose proof (proj1 Hw) as Ht. unfold msg_take_fields, fs_take_fields.
  intros [= <- <-].
  set (h := take_fields_slot t (dm_desc m)).
  change (map _ (dm_fields m)) with (map h (dm_fields m)).
  assert (Hget : forall k, bt_get k (map h (dm_fields m)) =
     match bt_get k (dm_fields m) with Some s => Some (snd (h (k, s))) | None => None end)
    by (intros k; apply map_slot_get, take_fields_slot_fst).
  split; [reflexivity|].
  assert (Hnone : forall n f, get_field t (dm_desc m) n = Some f ->
     fs_has t f (map h (dm_fields m)) = false).
  { intros n f Hf. pose proof (get_field_number _ _ _ _ Ht Hf) as En. subst n.
    unfold fs_has, fs_get_value. rewrite Hget.
    destruct (bt_get (fd_number f) (dm_fields m)) as [[|v|us]|]; try reflexivity.
    unfold h, take_fields_slot. cbn [snd fst]. rewrite Hf.
    destruct (fd_has t f v) eqn:E; cbn [snd]; [reflexivity|exact E]. }
  assert (Hext : forall n f, get_ext t (dm_desc m) n = Some f ->
     bt_get (fd_number f) (map h (dm_fields m)) = bt_get (fd_number f) (dm_fields m)).
  { intros n f Hf. pose proof (get_ext_number _ _ _ _ Ht Hf) as En. subst n.
    rewrite Hget. destruct (bt_get (fd_number f) (dm_fields m)) as [[|v|us]|]; try reflexivity.
    unfold h, take_fields_slot. cbn [snd fst]. now rewrite (field_ext_disjoint _ _ _ _ Hw Hf). }
  split.
  - unfold msg_iter_fields. cbn [dm_desc dm_fields with_fields].
    destruct (fs_iter_fields t (dm_desc m) (map h (dm_fields m))) as [|[f v] l0] eqn:E; [reflexivity|].
    assert (Hin : In (f, v) (fs_iter_fields t (dm_desc m) (map h (dm_fields m))))
      by (rewrite E; now left).
    apply iter_fields_In in Hin; [|exact Ht|apply map_slot_sorted; [apply take_fields_slot_fst|exact Hs]].
    destruct Hin as (H1 & H2 & _). rewrite (Hnone _ _ H1) in H2. discriminate.
  - split; [intros n f Hf; exact (Hnone _ _ Hf)|]. split.
    + intros n f Hf. split; [apply has_slot|apply get_slot]; eapply Hext; exact Hf.
    + split.
      * unfold msg_iter_extensions. cbn [dm_desc dm_fields with_fields]. unfold fs_iter_extensions.
        generalize (dm_fields m) as fs. induction fs as [|[n s] fs IH]; [reflexivity|].
        cbn [map flat_map]. f_equal; [|exact IH]. unfold h, take_fields_slot. cbn [snd fst].
        destruct s as [|v|us]; try reflexivity.
        destruct (get_field t (dm_desc m) n) as [f|] eqn:Ef; [|reflexivity].
        destruct (fd_has t f v); [|reflexivity]. cbn [snd].
        destruct (get_ext t (dm_desc m) n) as [x|] eqn:Ex; [|reflexivity].
        rewrite (field_ext_disjoint _ _ _ _ Hw Ex) in Ef. discriminate.
      * unfold msg_unknown_fields. cbn [dm_fields with_fields]. unfold fs_iter_unknown.
        generalize (dm_fields m) as fs. induction fs as [|[n s] fs IH]; [reflexivity|].
        cbn [map flat_map]. f_equal; [|exact IH]. unfold h, take_fields_slot. cbn [snd fst].
        destruct s as [|v|us]; try reflexivity.
        destruct (get_field t (dm_desc m) n) as [f|]; [|reflexivity].
        now destruct (fd_has t f v).
Qed.

Lemma take_extensions_laws t m l m' :
  wf t -> bt_sorted (dm_fields m) ->
  msg_take_extensions t m = (l, m') ->
  l = msg_iter_extensions t m /\ msg_iter_extensions t m' = [] /\
  (forall n f, get_ext t (dm_desc m) n = Some f -> has_field t m' f = false) /\
  (forall n f, get_field t (dm_desc m) n = Some f ->
     has_field t m' f = has_field t m f /\ get_field_value t m' f = get_field_value t m f) /\
  msg_iter_fields t m' = msg_iter_fields t m /\
  msg_unknown_fields m' = msg_unknown_fields m.
Proof.
  intros Hw Hs. pose proof (proj1 Hw) as Ht. unfold msg_take_extensions, fs_take_extensions.
  intros [= <- <-].
  set (h := take_exts_slot t (dm_desc m)).
  change (map _ (dm_fields m)) with (map h (dm_fields m)).
  assert (Hget : forall k, bt_get k (map h (dm_fields m)) =
     match bt_get k (dm_fields m) with Some s => Some (snd (h (k, s))) | None => None end)
    by (intros k; apply map_slot_get, take_exts_slot_fst).
  split; [reflexivity|].
  assert (Hnone : forall n f, get_ext t (dm_desc m) n = Some f ->
     fs_has t f (map h (dm_fields m)) = false).
  { intros n f Hf. pose proof (get_ext_number _ _ _ _ Ht Hf) as En. subst n.
    unfold fs_has, fs_get_value. rewrite Hget.
    destruct (bt_get (fd_number f) (dm_fields m)) as [[|v|us]|]; try reflexivity.
    unfold h, take_exts_slot. cbn [snd fst]. rewrite Hf.
    destruct (fd_has t f v) eqn:E; cbn [snd]; [reflexivity|exact E]. }
  assert (Hdis : forall n f, get_field t (dm_desc m) n = Some f -> get_ext t (dm_desc m) n = None).
  { intros n f Hf. destruct (get_ext t (dm_desc m) n) as [x|] eqn:Ex; [|reflexivity].
    rewrite (field_ext_disjoint _ _ _ _ Hw Ex) in Hf. discriminate. }
  assert (Hext : forall n f, get_field t (dm_desc m) n = Some f ->
     bt_get (fd_number f) (map h (dm_fields m)) = bt_get (fd_number f) (dm_fields m)).
  { intros n f Hf. pose proof (get_field_number _ _ _ _ Ht Hf) as En. subst n.
    rewrite Hget. destruct (bt_get (fd_number f) (dm_fields m)) as [[|v|us]|]; try reflexivity.
    unfold h, take_exts_slot. cbn [snd fst]. now rewrite (Hdis _ _ Hf). }
  split.
  - unfold msg_iter_extensions. cbn [dm_desc dm_fields with_fields].
    destruct (fs_iter_extensions t (dm_desc m) (map h (dm_fields m))) as [|[f v] l0] eqn:E; [reflexivity|].
    assert (Hin : In (f, v) (fs_iter_extensions t (dm_desc m) (map h (dm_fields m))))
      by (rewrite E; now left).
    apply iter_ext_In in Hin; [|exact Ht|apply map_slot_sorted; [apply take_exts_slot_fst|exact Hs]].
    destruct Hin as (H1 & H2 & _). rewrite (Hnone _ _ H1) in H2. discriminate.
  - split; [intros n f Hf; exact (Hnone _ _ Hf)|]. split.
    + intros n f Hf. split; [apply has_slot|apply get_slot]; eapply Hext; exact Hf.
    + split.
      * unfold msg_iter_fields. cbn [dm_desc dm_fields with_fields]. unfold fs_iter_fields.
        generalize (dm_fields m) as fs. induction fs as [|[n s] fs IH]; [reflexivity|].
        cbn [map flat_map]. f_equal; [|exact IH]. unfold h, take_exts_slot. cbn [snd fst].
        destruct s as [|v|us]; try reflexivity.
        destruct (get_ext t (dm_desc m) n) as [f|] eqn:Ef; [|reflexivity].
        destruct (fd_has t f v); [|reflexivity]. cbn [snd].
        destruct (get_field t (dm_desc m) n) as [x|] eqn:Ex; [|reflexivity].
        rewrite (Hdis _ _ Ex) in Ef. discriminate.
      * unfold msg_unknown_fields. cbn [dm_fields with_fields]. unfold fs_iter_unknown.
        generalize (dm_fields m) as fs. induction fs as [|[n s] fs IH]; [reflexivity|].
        cbn [map flat_map]. f_equal; [|exact IH]. unfold h, take_exts_slot. cbn [snd fst].
        destruct s as [|v|us]; try reflexivity.
        destruct (get_ext t (dm_desc m) n) as [f|]; [|reflexivity].
        now destruct (fd_has t f v).
Qed.

Lemma take_unknown_laws t m l m' :
  msg_take_unknown_fields m = (l, m') ->
  l = msg_unknown_fields m /\ msg_unknown_fields m' = [] /\
  (forall f, has_field t m' f = has_field t m f /\ get_field_value t m' f = get_field_value t m f) /\
  msg_iter_fields t m' = msg_iter_fields t m /\ msg_iter_extensions t m' = msg_iter_extensions t m.
Proof.
  unfold msg_take_unknown_fields, fs_take_unknown. intros [= <- <-].
  change (map _ (dm_fields m)) with (map take_unk_slot (dm_fields m)).
  split; [reflexivity|]. split.
  { unfold msg_unknown_fields, fs_iter_unknown. cbn [dm_fields with_fields].
    generalize (dm_fields m) as fs. induction fs as [|[n s] fs IH]; [reflexivity|].
    cbn [map flat_map]. rewrite IH. now destruct s. }
  split.
  { intros f. unfold has_field, get_field_value, fs_has, fs_get, fs_get_value. cbn [dm_fields with_fields].
    rewrite (map_slot_get take_unk_slot _ _ take_unk_slot_fst).
    now destruct (bt_get (fd_number f) (dm_fields m)) as [[|v|us]|]. }
  split.
  - unfold msg_iter_fields, fs_iter_fields. cbn [dm_desc dm_fields with_fields].
    generalize (dm_fields m) as fs. induction fs as [|[n s] fs IH]; [reflexivity|].
    cbn [map flat_map]. rewrite IH. now destruct s.
  - unfold msg_iter_extensions, fs_iter_extensions. cbn [dm_desc dm_fields with_fields].
    generalize (dm_fields m) as fs. induction fs as [|[n s] fs IH]; [reflexivity|].
    cbn [map flat_map]. rewrite IH. now destruct s.
Qed.

Definition fields_mut_slot (t : tables) (d : nat) (g : fdl -> value -> value) (kv : N * slot value) : N * slot value :=
  match snd kv with
  | SVal v =>
      match get_field t d (fst kv) with
      | Some f => if fd_has t f v then (fst kv, SVal (g f v)) else kv
      | None => kv
      end
  | _ => kv
  end.
Lemma fields_mut_slot_fst t d g kv : fst (fields_mut_slot t d g kv) = fst kv.
Proof.
  unfold fields_mut_slot. destruct (snd kv); auto. destruct (get_field t d (fst kv)); auto.
  now destruct (fd_has t f v).
Qed.
Lemma fields_mut_laws t m g :
  wf t ->
  let m' := msg_fields_mut t m g in
  dm_desc m' = dm_desc m /\
  (forall n f, get_field t (dm_desc m) n = Some f ->
     get_field_value t m' f = if has_field t m f then g f (get_field_value t m f) else get_field_value t m f) /\
  (forall n f, get_ext t (dm_desc m) n = Some f ->
     has_field t m' f = has_field t m f /\ get_field_value t m' f = get_field_value t m f) /\
  msg_unknown_fields m' = msg_unknown_fields m.
Proof.
  intros Hw. pose proof (proj1 Hw) as Ht. unfold msg_fields_mut, fs_fields_mut.
  set (h := fields_mut_slot t (dm_desc m) g).
  change (map _ (dm_fields m)) with (map h (dm_fields m)).
  assert (Hget : forall k, bt_get k (map h (dm_fields m)) =
     match bt_get k (dm_fields m) with Some s => Some (snd (h (k, s))) | None => None end)
    by (intros k; apply map_slot_get, fields_mut_slot_fst).
  cbv zeta. split; [reflexivity|]. split; [|split].
  - intros n f Hf. pose proof (get_field_number _ _ _ _ Ht Hf) as En. subst n.
    unfold get_field_value, has_field, fs_get, fs_has, fs_get_value. cbn [dm_fields with_fields]. rewrite Hget.
    destruct (bt_get (fd_number f) (dm_fields m)) as [[|v|us]|]; try reflexivity.
    unfold h, fields_mut_slot. cbn [snd fst]. rewrite Hf. now destruct (fd_has t f v).
  - intros n f Hf. pose proof (get_ext_number _ _ _ _ Ht Hf) as En. subst n.
    assert (E : bt_get (fd_number f) (map h (dm_fields m)) = bt_get (fd_number f) (dm_fields m)).
    { rewrite Hget. destruct (bt_get (fd_number f) (dm_fields m)) as [[|v|us]|]; try reflexivity.
      unfold h, fields_mut_slot. cbn [snd fst]. now rewrite (field_ext_disjoint _ _ _ _ Hw Hf). }
    split; [apply has_slot|apply get_slot]; exact E.
  - unfold msg_unknown_fields, fs_iter_unknown. cbn [dm_fields with_fields].
    induction (dm_fields m) as [|[k s] l IH]; [reflexivity|]. cbn [map flat_map].
    assert (E : forall l', map h l' = map h l' ) by reflexivity. clear E.
    f_equal; [|exact (IH (fun k => map_slot_get h l k (fields_mut_slot_fst t (dm_desc m) g)))].
    unfold h, fields_mut_slot. cbn [snd fst]. destruct s; try reflexivity.
    destruct (get_field t (dm_desc m) k); [|reflexivity]. now destruct (fd_has t f v).
Qed.

Definition extensions_mut_slot (t : tables) (d : nat) (g : fdl -> value -> value) (kv : N * slot value) : N * slot value :=
  match snd kv with
  | SVal v =>
      match get_ext t d (fst kv) with
      | Some f => if fd_has t f v then (fst kv, SVal (g f v)) else kv
      | None => kv
      end
  | _ => kv
  end.
Lemma extensions_mut_slot_fst t d g kv : fst (extensions_mut_slot t d g kv) = fst kv.
Proof.
  unfold extensions_mut_slot. destruct (snd kv); auto. destruct (get_ext t d (fst kv)); auto.
  now destruct (fd_has t f v).
Qed.
Lemma extensions_mut_laws t m g :
  wf t ->
  let m' := msg_extensions_mut t m g in
  dm_desc m' = dm_desc m /\
  (forall n f, get_ext t (dm_desc m) n = Some f ->
     get_field_value t m' f = if has_field t m f then g f (get_field_value t m f) else get_field_value t m f) /\
  (forall n f, get_field t (dm_desc m) n = Some f ->
     has_field t m' f = has_field t m f /\ get_field_value t m' f = get_field_value t m f) /\
  msg_unknown_fields m' = msg_unknown_fields m.
Proof.
  intros Hw. pose proof (proj1 Hw) as Ht. unfold msg_extensions_mut, fs_extensions_mut.
  set (h := extensions_mut_slot t (dm_desc m) g).
  change (map _ (dm_fields m)) with (map h (dm_fields m)).
  assert (Hget : forall k, bt_get k (map h (dm_fields m)) =
     match bt_get k (dm_fields m) with Some s => Some (snd (h (k, s))) | None => None end)
    by (intros k; apply map_slot_get, extensions_mut_slot_fst).
  cbv zeta. split; [reflexivity|]. split; [|split].
  - intros n f Hf. pose proof (get_ext_number _ _ _ _ Ht Hf) as En. subst n.
    unfold get_field_value, has_field, fs_get, fs_has, fs_get_value. cbn [dm_fields with_fields]. rewrite Hget.
    destruct (bt_get (fd_number f) (dm_fields m)) as [[|v|us]|]; try reflexivity.
    unfold h, extensions_mut_slot. cbn [snd fst]. rewrite Hf. now destruct (fd_has t f v).
  - intros n f Hf. pose proof (get_field_number _ _ _ _ Ht Hf) as En. subst n.
    assert (E : bt_get (fd_number f) (map h (dm_fields m)) = bt_get (fd_number f) (dm_fields m)).
    { rewrite Hget. destruct (bt_get (fd_number f) (dm_fields m)) as [[|v|us]|]; try reflexivity.
      unfold h, extensions_mut_slot. cbn [snd fst]. destruct (get_ext t (dm_desc m) (fd_number f)) as [x|] eqn:Ex; [|reflexivity].
      exfalso. rewrite (field_ext_disjoint _ _ _ _ Hw Ex) in Hf. discriminate. }
    split; [apply has_slot|apply get_slot]; exact E.
  - unfold msg_unknown_fields, fs_iter_unknown. cbn [dm_fields with_fields].
    induction (dm_fields m) as [|[k s] l IH]; [reflexivity|]. cbn [map flat_map].
    assert (E : forall l', map h l' = map h l' ) by reflexivity. clear E.
    f_equal; [|exact (IH (fun k => map_slot_get h l k (extensions_mut_slot_fst t (dm_desc m) g)))].
    unfold h, extensions_mut_slot. cbn [snd fst]. destruct s; try reflexivity.
    destruct (get_ext t (dm_desc m) k); [|reflexivity]. now destruct (fd_has t f v).
Qed.
