(** Documents that are kept and read later are read as their buffered form. *)
From Coq Require Import String.
From Verif Require Import Base BaseProofs Wire Unknown Value Descr Fields Codec DescrOk Float TextFormat TextParse Json JsonSer
  JsonNumbers JsonDe JsonMask JsonSafe Prop_JsonSafe Prop_JsonRules JsonMeaning.
Open Scope list_scope.
Open Scope N_scope.

(** ** Lists of members with the same keys *)
Section Related.
  Context {A B : Type} (R : A -> B -> Prop).
  Definition rel2 (x : str * A) (y : str * B) : Prop := fst x = fst y /\ R (snd x) (snd y).

  Lemma hash_insert_rel l l' k v v' : Forall2 rel2 l l' -> R v v' -> Forall2 rel2 (hash_insert k v l) (hash_insert k v' l').
  Proof.
    intros H Hv. induction H as [|[a x] [b y] l l' [H1 H2] Hl IH]; cbn [hash_insert].
    - constructor; [split; auto|constructor].
    - cbn in H1. subst b. destruct (bytes_eqb k a); constructor; auto; split; auto.
  Qed.
  Lemma sorted_insert_rel l l' k v v' : Forall2 rel2 l l' -> R v v' -> Forall2 rel2 (sorted_insert k v l) (sorted_insert k v' l').
  Proof.
    intros H Hv. induction H as [|[a x] [b y] l l' [H1 H2] Hl IH]; cbn [sorted_insert].
    - constructor; [split; auto|constructor].
    - cbn in H1. subst b. destruct (bytes_cmp k a); repeat constructor; auto.
  Qed.
  Lemma sort_members_rel l l' : Forall2 rel2 l l' -> Forall2 rel2 (sort_members l) (sort_members l').
  Proof.
    unfold sort_members. intros H. assert (G : forall a a', Forall2 rel2 a a' ->
      Forall2 rel2 (fold_left (fun acc kv => sorted_insert (fst kv) (snd kv) acc) l a) (fold_left (fun acc kv => sorted_insert (fst kv) (snd kv) acc) l' a')).
    { induction H as [|[k x] [k' y] l l' [H1 H2] Hl IH]; intros a a' Ha; cbn [fold_left]; [exact Ha|]. apply IH. cbn in *. subst k'. now apply sorted_insert_rel. }
    apply G. constructor.
  Qed.
  Lemma assoc_rel l l' k : Forall2 rel2 l l' ->
    match assoc_s k l, assoc_s k l' with Some x, Some y => R x y | None, None => True | _, _ => False end.
  Proof.
    intros H. induction H as [|[a x] [b y] l l' [H1 H2] Hl IH]; cbn [assoc_s]; [exact I|]. cbn in H1. subst b. destruct (bytes_eqb k a); auto.
  Qed.
  Lemma hash_remove_rel l l' k : Forall2 rel2 l l' -> Forall2 rel2 (hash_remove k l) (hash_remove k l').
  Proof.
    intros H. induction H as [|[a x] [b y] l l' [H1 H2] Hl IH]; cbn [hash_remove]; [constructor|]. cbn in H1. subst b.
    destruct (bytes_eqb k a); auto. constructor; auto. split; auto.
  Qed.
  Lemma keys_rel l l' : Forall2 rel2 l l' -> map fst l = map fst l'.
  Proof. intros H. induction H as [|x y l l' [H1 H2] Hl IH]; cbn; congruence. Qed.
  Lemma in_order_rel E l l' : Forall2 rel2 l l' -> Forall2 rel2 (in_order E l) (in_order E l').
  Proof.
    intros H. unfold in_order. rewrite (keys_rel _ _ H). induction (jx_order E (map fst l')) as [|k ks IH]; cbn [flat_map]; [constructor|].
    apply Forall2_app; [|exact IH]. pose proof (assoc_rel l l' k H) as Hk. destruct (assoc_s k l), (assoc_s k l'); try contradiction; repeat constructor; auto.
  Qed.
End Related.

Lemma map_members {A B} (f : A -> B) l : Forall2 (rel2 (fun x y => y = f x)) l (map (fun kv => (fst kv, f (snd kv))) l).
Proof. induction l as [|[k x] l IH]; cbn; constructor; auto. split; reflexivity. Qed.
Lemma rel_map {A B} (f : A -> B) l l' : Forall2 (rel2 (fun x y => y = f x)) l l' -> l' = map (fun kv => (fst kv, f (snd kv))) l.
Proof. intros H. induction H as [|[k x] [k' y] l l' [H1 H2] Hl IH]; cbn in *; [reflexivity|]. now subst. Qed.
Lemma sort_map {A B} (f : A -> B) l : sort_members (map (fun kv => (fst kv, f (snd kv))) l) = map (fun kv => (fst kv, f (snd kv))) (sort_members l).
Proof. apply rel_map, sort_members_rel, map_members. Qed.

(** ** Sorting *)
Lemma sorted_insert_last {A} k (v : A) l : Forall (fun kv => bytes_cmp (fst kv) k = Lt) l -> sorted_insert k v l = l ++ [(k, v)].
Proof.
  intros H. induction H as [|[a x] l H1 H2 IH]; cbn [sorted_insert app]; [reflexivity|]. cbn in H1.
  destruct (bytes_cmp k a) eqn:E.
  - apply bytes_cmp_eq in E. subst a. rewrite bytes_cmp_refl in H1. discriminate.
  - pose proof (bytes_cmp_trans _ _ _ E H1) as X. rewrite bytes_cmp_refl in X. discriminate.
  - now rewrite IH.
Qed.
Lemma keys_up_app {A} (l : list (str * A)) k v r : keys_up (l ++ (k, v) :: r) -> Forall (fun kv => bytes_cmp (fst kv) k = Lt) l.
Proof.
  induction l as [|[a x] l IH]; cbn [app keys_up]; [constructor|]. intros [H1 H2]. constructor; [|auto]. rewrite Forall_forall in H1.
  apply (H1 (k, v)). apply in_or_app. right. now left.
Qed.
Lemma sort_sorted {A} (l : list (str * A)) : keys_up l -> sort_members l = l.
Proof.
  unfold sort_members. assert (G : forall r a : list (str * A), keys_up (a ++ r) -> fold_left (fun acc kv => sorted_insert (fst kv) (snd kv) acc) r a = a ++ r).
  { induction r as [|[k v] r IH]; intros a H; cbn [fold_left]; [now rewrite app_nil_r|]. cbn [fst snd].
    rewrite sorted_insert_last by (eapply keys_up_app, H). rewrite IH by (now rewrite <- app_assoc). now rewrite <- app_assoc. }
  intros H. apply (G l []). exact H.
Qed.
Lemma sort_sort {A} (l : list (str * A)) : sort_members (sort_members l) = sort_members l.
Proof. apply sort_sorted, sort_members_good. Qed.

Section JsonInd.
  Variable P : json -> Prop.
  Hypothesis H0 : forall j, match j with JArr _ | JObj _ => False | _ => True end -> P j.
  Hypothesis H1 : forall l, Forall P l -> P (JArr l).
  Hypothesis H2 : forall l, Forall (fun kv => P (snd kv)) l -> P (JObj l).
  Fixpoint json_induction (j : json) : P j :=
    match j as j' return P j' with
    | JArr l => H1 l ((fix go l : Forall P l := match l with [] => Forall_nil _ | x :: r => Forall_cons x (json_induction x) (go r) end) l)
    | JObj l => H2 l ((fix go l : Forall (fun kv => P (snd kv)) l :=
                         match l with [] => Forall_nil _ | x :: r => Forall_cons x (json_induction (snd x)) (go r) end) l)
    | j' => H0 j' I
    end.
End JsonInd.

Lemma buffered_twice j : buffered (buffered j) = buffered j.
Proof.
  induction j as [j Hj|l IH|l IH] using json_induction.
  - destruct j; try contradiction; reflexivity.
  - cbn [buffered]. f_equal. rewrite map_map. apply map_ext_in. intros x Hx. rewrite Forall_forall in IH. auto.
  - cbn [buffered]. f_equal. rewrite <- (sort_map buffered), map_map. cbn [fst snd]. rewrite sort_sort. f_equal. apply map_ext_in.
    intros kv Hkv. rewrite Forall_forall in IH. now rewrite (IH kv Hkv).
Qed.
Lemma buffered_ok nulls j : json_okb nulls j = true -> json_okb nulls (buffered j) = true.
Proof.
  induction j as [j Hj|l IH|l IH] using json_induction; intros H.
  - destruct j; try contradiction; exact H.
  - cbn [buffered json_okb] in *. apply forallb_forall. intros x Hx. apply in_map_iff in Hx. destruct Hx as (y & <- & Hy).
    rewrite Forall_forall in IH. rewrite forallb_forall in H. auto.
  - cbn [buffered json_okb] in *. apply forallb_forall. intros x Hx. apply sort_members_good in Hx. apply in_map_iff in Hx. destruct Hx as (y & <- & Hy).
    rewrite Forall_forall in IH. rewrite forallb_forall in H. specialize (H y Hy). rewrite !andb_true_iff in H. destruct H as [[[K1 K2] K3] K4].
    cbn [fst snd]. rewrite !andb_true_iff. split; [split; [split; assumption|]|exact (IH y Hy K4)].
    destruct nulls; [reflexivity|]. cbn [orb] in *. destruct y as [ky jy]. cbn [fst snd] in *. destruct jy; try discriminate K3; reflexivity.
Qed.

(** ** Reading *)
Section Read.
  Variables (E : json_externs) (t : tables) (deny : bool).
  (** [r] on a document as kept or not reads as [r'] does *)
  Definition reads_as (b b' : bool) (r r' : reader) : Prop := forall g, r b g = r' b' g.
  Definition alike (b b' : bool) (r r' : reader) : Prop := reads_as b b' r r' /\ reads_as true true r r'.

  Lemma rel2_impl {A B} (P Q : A -> B -> Prop) l l' : (forall a b, P a b -> Q a b) -> Forall2 (rel2 P) l l' -> Forall2 (rel2 Q) l l'.
  Proof. intros H. apply Forall2_impl. intros x y [H1 H2]. split; auto. Qed.

  Lemma list_alike b b' k rs rs' : Forall2 (reads_as b b') rs rs' -> de_list rs b k = de_list rs' b' k.
  Proof. intros H. induction H as [|r r' rs rs' H1 Hl IH]; cbn [de_list]; [reflexivity|]. now rewrite H1, IH. Qed.
  Lemma wlist_alike b b' rs rs' : Forall2 (reads_as b b') rs rs' -> de_wlist rs b = de_wlist rs' b'.
  Proof. intros H. induction H as [|r r' rs rs' H1 Hl IH]; cbn [de_wlist]; [reflexivity|]. now rewrite H1, IH. Qed.
  Lemma map_alike b b' kk vf ms ms' : Forall2 (rel2 (reads_as b b')) ms ms' -> forall acc, de_map ms b kk vf acc = de_map ms' b' kk vf acc.
  Proof.
    intros H. induction H as [|[k r] [k' r'] ms ms' [H1 H2] Hl IH]; intros acc; cbn [de_map]; [reflexivity|]. cbn in H1. subst k'. cbn in H2. rewrite H2.
    destruct (de_key kk k); cbn [jbind]; try reflexivity. destruct (r' b' _); cbn [jbind]; try reflexivity. apply IH.
  Qed.
  Lemma wstruct_alike b b' ms ms' : Forall2 (rel2 (reads_as b b')) ms ms' -> de_wstruct ms b = de_wstruct ms' b'.
  Proof.
    intros H. induction H as [|[k r] [k' r'] ms ms' [H1 H2] Hl IH]; cbn [de_wstruct]; [reflexivity|]. cbn in H1. subst k'. cbn in H2. now rewrite H2, IH.
  Qed.
  Lemma members_alike b b' ms ms' : Forall2 (rel2 (reads_as b b')) ms ms' -> forall m, de_members t deny ms b m = de_members t deny ms' b' m.
  Proof.
    intros H. induction H as [|[k r] [k' r'] ms ms' [H1 H2] Hl IH]; intros m; cbn [de_members]; [reflexivity|]. cbn in H1. subst k'. cbn in H2.
    destruct (json_field t (dm_desc m) k) as [f|].
    - rewrite H2. destruct (r' b' (TOpt f)) as [[x|]| | |]; cbn [jbind]; try reflexivity; [|apply IH].
      destruct (oneof_given t m f); [reflexivity|]. destruct (put_field t m f x); cbn [jbind]; try reflexivity. apply IH.
    - destruct (get_ext_by_json t (dm_desc m) k) as [f|].
      + rewrite H2. destruct (r' b' (TOpt f)) as [[x|]| | |]; cbn [jbind]; try reflexivity; apply IH.
      + destruct deny; [reflexivity|apply IH].
  Qed.
  Lemma find_alike (R : reader -> reader -> Prop) want ms ms' : Forall2 (rel2 R) ms ms' -> forall seen seen', Forall2 (rel2 R) seen seen' ->
    match find_member want ms seen, find_member want ms' seen' with
    | Some (r, s, l), Some (r', s', l') => R r r' /\ Forall2 (rel2 R) s s' /\ Forall2 (rel2 R) l l'
    | None, None => True
    | _, _ => False
    end.
  Proof.
    intros H. induction H as [|[k r] [k' r'] ms ms' [H1 H2] Hl IH]; intros seen seen' Hs; cbn [find_member]; [exact I|]. cbn in H1. subst k'. cbn in H2.
    destruct (bytes_eqb k want); [auto|]. apply IH. now apply hash_insert_rel.
  Qed.
  Lemma payload_alike b b' rest rest' seen seen' name d : Forall2 (rel2 (alike b b')) rest rest' -> Forall2 (rel2 (alike b b')) seen seen' ->
    any_payload E t deny rest seen b name d = any_payload E t deny rest' seen' b' name d.
  Proof.
    intros Hr Hs. unfold any_payload. destruct (wkt_named name).
    - assert (D : forall s s' l l', Forall2 (rel2 (alike b b')) s s' -> Forall2 (rel2 (alike b b')) l l' -> forall x : dynmsg,
        (if deny then match in_order E s ++ l with (k, _) :: _ => JErr (XUnknownField k) | [] => JOk x end else JOk x) =
        (if deny then match in_order E s' ++ l' with (k, _) :: _ => JErr (XUnknownField k) | [] => JOk x end else JOk x)).
      { intros s s' l l' H1 H2 x. destruct deny; [|reflexivity]. pose proof (Forall2_app (in_order_rel _ E _ _ H1) H2) as H3.
        inversion H3 as [|[k r] [k' r'] ? ? [K1 K2]]; [reflexivity|]. cbn in K1. now subst. }
      pose proof (assoc_rel _ _ _ (s2b "value") Hs) as Ha. destruct (assoc_s (s2b "value") seen) as [r|], (assoc_s (s2b "value") seen') as [r'|]; try contradiction.
      + destruct Ha as [_ Ha]. rewrite Ha. destruct (r' true _) as [[v|]| | |]; cbn [jbind]; try reflexivity.
        destruct v; cbn [jbind]; try reflexivity. apply D; [now apply hash_remove_rel|exact Hr].
      + pose proof (find_alike _ (s2b "value") _ _ Hr _ _ Hs) as Hf.
        destruct (find_member (s2b "value") rest seen) as [[[r s] l]|], (find_member (s2b "value") rest' seen') as [[[r' s'] l']|]; try contradiction; [|reflexivity].
        destruct Hf as ([F1 _] & F2 & F3). rewrite F1. destruct (r' b' _) as [[v|]| | |]; cbn [jbind]; try reflexivity.
        destruct v; cbn [jbind]; try reflexivity. now apply D.
    - rewrite (members_alike true true (in_order E seen) (in_order E seen')).
      + destruct (de_members _ _ _ _ _); cbn [jbind]; try reflexivity. apply members_alike. revert Hr. apply rel2_impl. now intros ? ? [X _].
      + apply in_order_rel. revert Hs. apply rel2_impl. now intros ? ? [_ X].
  Qed.
  Lemma any_alike b b' ms ms' d : Forall2 (rel2 (alike b b')) ms ms' -> de_any E t deny ms b d = de_any E t deny ms' b' d.
  Proof.
    intros H. unfold de_any. pose proof (find_alike _ (s2b "@type") _ _ H [] [] (Forall2_nil _)) as Hf.
    destruct (find_member (s2b "@type") ms []) as [[[r s] l]|], (find_member (s2b "@type") ms' []) as [[[r' s'] l']|]; try contradiction; [|reflexivity].
    destruct Hf as ([F1 _] & F2 & F3). rewrite F1. destruct (r' b' _); cbn [jbind]; try reflexivity. destruct (type_url_name _) as [nm|]; [|reflexivity].
    destruct (find_msg t nm); [|reflexivity]. now rewrite (payload_alike b b' l l' s s').
  Qed.
  Lemma obj_alike b b' ms ms' g : Forall2 (rel2 (alike b b')) ms ms' -> de_obj E t deny ms b g = de_obj E t deny ms' b' g.
  Proof.
    intros H. assert (H' : Forall2 (rel2 (reads_as b b')) ms ms') by (revert H; apply rel2_impl; now intros ? ? [X _]).
    destruct g; cbn [de_obj]; try reflexivity.
    - destruct (wkt_of t d) as [[]|]; try reflexivity; try (now rewrite (wstruct_alike b b' ms ms')).
      + now apply any_alike.
      + destruct H; reflexivity.
      + now rewrite (members_alike b b' ms ms').
    - destruct (kind_msg k); [|reflexivity]. destruct (entry_key t n); [|reflexivity]. destruct (entry_value t n); [|reflexivity].
      now rewrite (map_alike b b' _ _ ms ms').
    - now rewrite (wstruct_alike b b' ms ms').
  Qed.
  Lemma arr_alike b b' rs rs' g : Forall2 (reads_as b b') rs rs' -> de_arr t rs b g = de_arr t rs' b' g.
  Proof.
    intros H. destruct g; cbn [de_arr]; try reflexivity.
    - destruct (wkt_of t d) as [[]|]; try reflexivity; now rewrite (wlist_alike b b' rs rs').
    - now rewrite (list_alike b b' _ rs rs').
    - now rewrite (wlist_alike b b' rs rs').
  Qed.

  Lemma buffered_alike j : forall b g, de E t deny j true g = de E t deny (buffered j) b g.
  Proof.
    induction j as [j Hj|l IH|l IH] using json_induction; intros b g.
    - destruct j; try contradiction; reflexivity.
    - cbn [buffered de]. apply arr_alike. rewrite map_map. clear -IH. induction IH as [|x l Hx Hl IHl]; cbn [map]; constructor; auto.
      intros g. apply Hx.
    - cbn [buffered de].
      set (ms := map (fun kv => (fst kv, fun b g' => de E t deny (snd kv) b g')) l).
      set (ms' := map (fun kv => (fst kv, fun b g' => de E t deny (snd kv) b g')) (sort_members (map (fun kv => (fst kv, buffered (snd kv))) l))).
      assert (Up : ms' = sort_members (map (fun kv => (fst kv, fun b g' => de E t deny (buffered (snd kv)) b g')) l)).
      { unfold ms'. rewrite <- (sort_map (fun x b g' => de E t deny x b g')), map_map. reflexivity. }
      assert (Al : Forall2 (rel2 (alike true b)) (sort_members ms) ms').
      { rewrite Up. apply sort_members_rel. unfold ms. clear -IH. induction IH as [|x l Hx Hl IHl]; cbn [map]; constructor; auto.
        split; [reflexivity|]. cbn [snd]. split; intros g; apply Hx. }
      assert (X : sort_members ms' = ms') by (rewrite Up; apply sort_sort).
      destruct b.
      + change (de_obj E t deny (sort_members ms) true (target_goal g) = de_obj E t deny (sort_members ms') true (target_goal g)). rewrite X.
        now apply obj_alike.
      + exact (obj_alike _ _ _ _ (target_goal g) Al).
  Qed.
  Lemma de_buffered j g : de E t deny j true g = de E t deny (buffered j) false g.
  Proof. apply buffered_alike. Qed.

  (** ** Values *)
  Lemma value_read j : de E t deny j false (TGoal GWValue) = JOk (Some (VMessage (value_of j))).
  Proof.
    induction j as [j Hj|l IH|l IH] using json_induction.
    - destruct j; try contradiction; reflexivity.
    - cbn [de target_goal de_arr value_of].
      assert (X : de_wlist (map (fun x b g' => de E t deny x b g') l) false = JOk (map (fun x => VMessage (value_of x)) l)).
      { induction IH as [|x l Hx Hl IHl]; cbn [map de_wlist]; [reflexivity|]. rewrite Hx, IHl. reflexivity. }
      rewrite X. reflexivity.
    - cbn [de target_goal de_obj value_of].
      assert (X : de_wstruct (map (fun kv => (fst kv, fun b g' => de E t deny (snd kv) b g')) l) false = JOk (map (fun kv => (fst kv, VMessage (value_of (snd kv)))) l)).
      { induction IH as [|x l Hx Hl IHl]; cbn [map de_wstruct]; [reflexivity|]. rewrite Hx, IHl. reflexivity. }
      rewrite X. reflexivity.
  Qed.
  Lemma wlist_read l : de_wlist (map (fun x b g' => de E t deny x b g') l) false = JOk (map (fun x => VMessage (value_of x)) l).
  Proof. induction l as [|x l IHl]; cbn [map de_wlist]; [reflexivity|]. rewrite value_read, IHl. reflexivity. Qed.
  Lemma wstruct_read l : de_wstruct (readers E t deny l) false = JOk (map (fun kv => (fst kv, VMessage (value_of (snd kv)))) l).
  Proof. unfold readers. induction l as [|x l IHl]; cbn [map de_wstruct]; [reflexivity|]. rewrite value_read, IHl. reflexivity. Qed.
End Read.
