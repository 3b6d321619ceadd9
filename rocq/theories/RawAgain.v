(** Pools built from files that differ in their references only, when these
    stand for the same things. *)
From Verif Require Import Base BaseProofs Value Descr Proto Build VisitProofs EventProofs BuildFrame BuildNames BuildQuiet BuildResolve DeclSpec DeclProofs Raw RawSpec RawPlaces RawWalk.
From Coq Require Import List ZArith NArith Lia.
Import ListNotations.
Local Open Scope list_scope.

Definition related {A B} (R : A -> B -> Prop) (a : res A) (b : res B) : Prop :=
  match a, b with
  | Ok x, Ok y => R x y
  | Err e, Err e' => e = e'
  | Panic, Panic | Fuel, Fuel => True
  | _, _ => False
  end.
Lemma related_bind {A B C D} (R : A -> B -> Prop) (S : C -> D -> Prop) a b f g :
  related R a b -> (forall x y, R x y -> related S (f x) (g y)) -> related S (rbind a f) (rbind b g).
Proof. intros H K. destruct a, b; cbn in *; try contradiction; auto. Qed.
Lemma related_impl {A B} (R S : A -> B -> Prop) a b : (forall x y, R x y -> S x y) -> related R a b -> related S a b.
Proof. intros H K. destruct a, b; cbn in *; auto. Qed.
Lemma related_refl {A} (a : res A) : related eq a a.
Proof. destruct a; cbn; auto. Qed.

(** states that are alike; [K] of the first *)
Definition like (K : pool -> Prop) (v w : vst) : Prop := pool_alike (v_pool v) (v_pool w) /\ v_errs v = v_errs w /\ K (v_pool v).
(** the same results besides *)
Definition with_like {A} (K : pool -> Prop) (x y : A * vst) : Prop := fst x = fst y /\ like K (snd x) (snd y).

Lemma files_length p q : pool_alike p q -> length (p_files p) = length (p_files q).
Proof. intros A. pose proof (pa_files _ _ A) as H. induction H; cbn; [reflexivity|f_equal; assumption]. Qed.
Lemma F2_at {A B} (R : A -> B -> Prop) l l' i : Forall2 R l l' -> related R (at_ l i) (at_ l' i).
Proof.
  intros H. revert i. induction H as [|a b l l' H _ IH]; intros [|i]; unfold at_; cbn; auto. apply IH.
Qed.

(** *** Changes to the pool *)
Lemma alike_messages l l' p q : pool_alike p q -> l = l' -> pool_alike (set_messages l p) (set_messages l' q).
Proof. intros [] ->. constructor; auto. Qed.
Lemma alike_enums l l' p q : pool_alike p q -> l = l' -> pool_alike (set_enums l p) (set_enums l' q).
Proof. intros [] ->. constructor; auto. Qed.
Lemma alike_exts l l' p q : pool_alike p q -> l = l' -> pool_alike (set_exts l p) (set_exts l' q).
Proof. intros [] ->. constructor; auto. Qed.
Lemma alike_services l l' p q : pool_alike p q -> l = l' -> pool_alike (set_services l p) (set_services l' q).
Proof. intros [] ->. constructor; auto. Qed.
Lemma alike_names l l' p q : pool_alike p q -> l = l' -> pool_alike (set_names l p) (set_names l' q).
Proof. intros [] ->. constructor; auto. Qed.
Lemma alike_files n n' l l' p q : pool_alike p q -> n = n' -> Forall2 file_alike l l' -> pool_alike (set_files n l p) (set_files n' l' q).
Proof. intros [] -> H. constructor; auto. Qed.
Lemma F2_upd {A B} (R : A -> B -> Prop) g h l l' : Forall2 R l l' -> (forall a b, R a b -> R (g a) (h b)) -> forall i, Forall2 R (upd i g l) (upd i h l').
Proof. intros H K. induction H as [|a b l l' H H0 IH]; intros [|i]; cbn; constructor; auto. Qed.

Section Like.
  Context (K : pool -> Prop).
  Notation lk := (like K).
  Lemma like_file v w i : lk v w -> related file_alike (at_ (p_files (v_pool v)) i) (at_ (p_files (v_pool w)) i).
  Proof. intros [A _]. apply F2_at. exact (pa_files _ _ A). Qed.
  Lemma like_message v w i : lk v w -> related eq (at_ (p_messages (v_pool v)) i) (at_ (p_messages (v_pool w)) i).
  Proof. intros [A _]. rewrite (pa_msgs _ _ A). apply related_refl. Qed.
  Lemma like_enum v w i : lk v w -> related eq (at_ (p_enums (v_pool v)) i) (at_ (p_enums (v_pool w)) i).
  Proof. intros [A _]. rewrite (pa_enums _ _ A). apply related_refl. Qed.
  Lemma like_service v w i : lk v w -> related eq (at_ (p_services (v_pool v)) i) (at_ (p_services (v_pool w)) i).
  Proof. intros [A _]. rewrite (pa_svcs _ _ A). apply related_refl. Qed.
  Lemma like_push l e v w : lk v w -> related lk (push_err l e v) (push_err l e w).
  Proof.
    intros [A [E H]]. unfold push_err.
    assert (forallb (label_ok (v_pool v)) l = forallb (label_ok (v_pool w)) l) as ->.
    { induction l as [|a l IH]; [reflexivity|]. cbn [forallb]. rewrite IH. f_equal. unfold label_ok. rewrite (files_length _ _ A). reflexivity. }
    destruct (forallb _ _); cbn; [|exact Logic.I]. split; [exact A|]. split; [cbn; rewrite E; reflexivity|exact H].
  Qed.
  Lemma like_assert b b' v w : lk v w -> b = b' -> related lk (assert b v) (assert b' w).
  Proof. intros H ->. destruct b'; cbn; auto. Qed.
  Lemma like_fold {A} (g h : A -> vst -> res vst) l : (forall a v w, In a l -> lk v w -> related lk (g a v) (h a w)) ->
    forall v w, lk v w -> related lk (fold_res g l v) (fold_res h l w).
  Proof.
    induction l as [|a l IH]; intros H v w L; cbn [fold_res]; [exact L|].
    eapply related_bind; [apply H; [left; reflexivity|exact L]|]. intros x y Q. apply IH; [|exact Q]. intros. apply H; [right; assumption|assumption].
  Qed.
  Lemma like_on (g h : pool -> pool) v w : lk v w -> (pool_alike (v_pool v) (v_pool w) -> pool_alike (g (v_pool v)) (h (v_pool w))) ->
    (K (v_pool v) -> K (g (v_pool v))) -> lk (on_pool g v) (on_pool h w).
  Proof. intros [A [E H]] Q1 Q2. split; [apply Q1; exact A|]. split; [exact E|apply Q2; exact H]. Qed.
End Like.

(** ** The names phase *)
Definition any (p : pool) : Prop := True.
Lemma like_any K v w : like K v w -> like any v w.
Proof. intros (A & B & _). split; [exact A|]. split; [exact B|exact Logic.I]. Qed.
Lemma any_on (g h : pool -> pool) v w : like any v w -> (pool_alike (v_pool v) (v_pool w) -> pool_alike (g (v_pool v)) (h (v_pool w))) -> like any (on_pool g v) (on_pool h w).
Proof. intros L H. apply like_on; auto. Qed.

Lemma add_name_like f name path k v w : like any v w -> related (like any) (add_name f name path k v) (add_name f name path k w).
Proof.
  intros L. unfold add_name. rewrite (pa_names _ _ (proj1 L)). destruct (assoc_s name (p_names (v_pool w))) as [d|].
  - destruct (_ && _); [exact L|]. apply like_push. exact L.
  - cbn. apply any_on; [exact L|]. intros A. apply alike_names; [exact A|]. rewrite (pa_names _ _ A). reflexivity.
Qed.
Lemma names_file_like path i f f' v w : blank_file f = blank_file f' -> like any v w -> related (like any) (names_file path i f v) (names_file path i f' w).
Proof.
  intros E L. unfold names_file.
  assert (fl_name f = fl_name f') as E1 by (apply (f_equal fl_name) in E; exact E).
  assert (fl_package f = fl_package f') as E2 by (apply (f_equal fl_package) in E; exact E).
  assert (file_syntax f = file_syntax f') as E3 by (unfold file_syntax; replace (fl_syntax f') with (fl_syntax f) by (apply (f_equal fl_syntax) in E; exact E); reflexivity).
  eapply related_bind; [apply like_assert; [exact L|rewrite (files_length _ _ (proj1 L)); reflexivity]|]. intros v1 w1 L1.
  rewrite <- E3. destruct (file_syntax f) as [sy|]; [|apply like_push; exact L1].
  rewrite <- E1, <- E2, (pa_fnames _ _ (proj1 L1)).
  assert (like any (on_pool (fun p => set_files (assoc_put (fl_name f) i (p_file_names p)) (p_files p) p) v1)
                   (on_pool (fun p => set_files (assoc_put (fl_name f) i (p_file_names p)) (p_files p) p) w1)) as L2.
  { apply any_on; [exact L1|]. intros A. apply alike_files; [exact A|rewrite (pa_fnames _ _ A); reflexivity|exact (pa_files _ _ A)]. }
  eapply related_bind; [destruct (assoc_s _ _); [apply like_push; exact L2|exact L2]|]. intros v3 w3 L3.
  assert (like any (on_pool (fun p => set_files (p_file_names p) (p_files p ++ [FileI sy f [] []]) p) v3)
                   (on_pool (fun p => set_files (p_file_names p) (p_files p ++ [FileI sy f' [] []]) p) w3)) as L4.
  { apply any_on; [exact L3|]. intros A. apply alike_files; [exact A|exact (pa_fnames _ _ A)|]. apply Forall2_app; [exact (pa_files _ _ A)|].
    repeat constructor. exact E. }
  destruct (fl_package f); [exact L4|].
  eapply related_bind; [|intros v5 w5 L5; apply add_name_like; exact L5].
  apply like_fold; [|exact L4]. intros a v5 w5 _ L5. apply add_name_like. exact L5.
Qed.
Lemma cons_inj {A} (a b : A) l l' : a :: l = b :: l' -> a = b /\ l = l'.
Proof. intros H. inversion H. auto. Qed.
Lemma check_camel_like f : forall fs fs' i seen v w, map blank_field fs = map blank_field fs' -> like any v w ->
  related (like any) (check_camel f i seen fs v) (check_camel f i seen fs' w).
Proof.
  induction fs as [|x fs IH]; intros [|x' fs'] i seen v w E L; try discriminate; [exact L|]. cbn [map] in E. apply cons_inj in E. destruct E as [E0 E1]. cbn [check_camel].
  assert (fp_name x = fp_name x') as En by (apply (f_equal fp_name) in E0; exact E0). rewrite <- En. destruct (existsb _ _).
  - eapply related_bind; [apply like_push; exact L|]. intros v1 w1 L1. apply IH; assumption.
  - apply IH; assumption.
Qed.
Lemma blank_parts m m' : blank_message m = blank_message m' ->
  dp_name m = dp_name m' /\ map blank_field (dp_fields m) = map blank_field (dp_fields m') /\ dp_reserved m = dp_reserved m' /\
  dp_ext_ranges m = dp_ext_ranges m' /\ dp_map_entry m = dp_map_entry m'.
Proof. destruct m, m'. cbn. intros H. inversion H. auto. Qed.

Lemma names_like e e' v w : blank_event e = blank_event e' -> like any v w -> related (like any) (names_step e v) (names_step e' w).
Proof.
  intros E L. destruct e as [pa i f|pa fu f par i m|pa fu f m i x|pa fu f m i n|pa fu f i s|pa fu f s i m|pa fu f par i x|pa fu f x i y|pa fu f par i x];
    destruct e' as [pa' i' f'|pa' fu' f' par' i' m'|pa' fu' f' m' i' x'|pa' fu' f' m' i' n'|pa' fu' f' i' s'|pa' fu' f' s' i' m'|pa' fu' f' par' i' x'|pa' fu' f' x' i' y'|pa' fu' f' par' i' x'];
    try discriminate; cbn [blank_event] in E; cbn [names_step];
    try (assert (pa = pa' /\ fu = fu' /\ f = f' /\ i = i') as (<- & <- & <- & <-) by (repeat split; congruence));
    try (assert (m = m') as <- by congruence); try (assert (s = s') as <- by congruence); try (apply add_name_like; exact L).
  - assert (pa = pa' /\ i = i') as (<- & <-) by (split; congruence). apply names_file_like; [congruence|exact L].
  - assert (par = par') as <- by congruence. assert (blank_message m = blank_message m') as H by congruence. destruct (blank_parts _ _ H) as (P1 & P2 & P3 & P4 & P5). unfold names_message. rewrite <- P1, <- P5.
    eapply related_bind; [apply add_name_like; exact L|]. intros v1 w1 L1.
    eapply related_bind; [apply like_assert; [exact L1|rewrite (pa_msgs _ _ (proj1 L1)); reflexivity]|]. intros v2 w2 L2.
    match goal with |- context [on_pool ?g v2] => match goal with |- context [on_pool ?h w2] => assert (like any (on_pool g v2) (on_pool h w2)) as L3 end end.
    { apply any_on; [exact L2|]. intros A. apply alike_messages; [exact A|]. rewrite (pa_msgs _ _ A). reflexivity. }
    eapply related_bind; [eapply like_file; exact L3|]. intros g g' (G1 & _). rewrite <- G1. destruct (fi_syntax g); [exact L3|].
    apply check_camel_like; assumption.
  - assert (n = n') as <- by congruence. unfold names_oneof. eapply related_bind; [apply add_name_like; exact L|]. intros v1 w1 L1.
    eapply related_bind; [eapply like_message; exact L1|]. intros mi mi' <-.
    eapply related_bind; [apply like_assert; [exact L1|reflexivity]|]. intros v2 w2 L2. cbn.
    apply any_on; [exact L2|]. intros A. apply alike_messages; [exact A|]. rewrite (pa_msgs _ _ A). reflexivity.
  - assert (par = par') as <- by congruence. assert (x = x') as <- by congruence. unfold names_enum. eapply related_bind; [apply add_name_like; exact L|]. intros v1 w1 L1.
    eapply related_bind with (R := like any).
    { destruct (ep_values x) as [|y ys]; [apply like_push; exact L1|]. eapply related_bind; [eapply like_file; exact L1|]. intros g g' (G1 & _).
      rewrite <- G1. destruct (fi_syntax g); [exact L1|]. destruct (_ =? _)%Z; [exact L1|apply like_push; exact L1]. }
    intros v2 w2 L2. eapply related_bind; [apply like_assert; [exact L2|rewrite (pa_enums _ _ (proj1 L2)); reflexivity]|]. intros v3 w3 L3. cbn.
    apply any_on; [exact L3|]. intros A. apply alike_enums; [exact A|]. rewrite (pa_enums _ _ A). reflexivity.
  - assert (x = x') as <- by congruence. assert (y = y') as <- by congruence. unfold names_enum_value. eapply related_bind; [apply add_name_like; exact L|]. intros v1 w1 L1.
    eapply related_bind; [eapply like_enum; exact L1|]. intros mi mi' <-.
    eapply related_bind; [apply like_assert; [exact L1|reflexivity]|]. intros v2 w2 L2. cbn.
    apply any_on; [exact L2|]. intros A. apply alike_enums; [exact A|]. rewrite (pa_enums _ _ A). reflexivity.
Qed.
Lemma names_all_like : forall es es' v w, map blank_event es = map blank_event es' -> like any v w -> related (like any) (fold_res names_step es v) (fold_res names_step es' w).
Proof.
  induction es as [|e es IH]; intros [|e' es'] v w E L; try discriminate; [exact L|]. cbn [map] in E. apply cons_inj in E. destruct E as [E0 E1]. cbn [fold_res].
  eapply related_bind; [apply names_like; assumption|]. intros v1 w1 L1. apply IH; assumption.
Qed.

(** ** The resolve phase *)

Lemma public_alike fuel : forall p q deps i, pool_alike p q -> related eq (resolve_public fuel p deps i) (resolve_public fuel q deps i).
Proof.
  induction fuel as [|fuel IH]; intros p q deps i A; cbn [resolve_public]; [exact Logic.I|].
  eapply related_bind; [apply F2_at; exact (pa_files _ _ A)|]. intros g g' (_ & _ & _ & G).
  assert (fl_deps (fi_raw g) = fl_deps (fi_raw g')) as -> by (apply (f_equal fl_deps) in G; exact G).
  assert (forall i, is_public (fi_raw g) i = is_public (fi_raw g') i) as P by (intros k; unfold is_public; apply (f_equal fl_public) in G; cbn in G; rewrite G; reflexivity).
  rewrite (pa_fnames _ _ A). generalize (fl_deps (fi_raw g')) as ds. generalize 0%nat as j. intros j ds. revert j deps.
  induction ds as [|d ds IHd]; intros j deps; [cbn; reflexivity|].
  destruct (assoc_s d (p_file_names q)) as [di|]; [|apply IHd].
  rewrite P. destruct (is_public _ _); [|apply IHd]. destruct (set_insert di deps) as [deps' fresh]. destruct (negb fresh); [|apply IHd].
  eapply related_bind; [apply IH; exact A|]. intros x y <-. apply IHd.
Qed.
Lemma deps_like fuel i : forall ds k trans v w, like any v w -> related (with_like any) (resolve_deps fuel i k ds trans v) (resolve_deps fuel i k ds trans w).
Proof.
  induction ds as [|d ds IH]; intros k trans v w L; cbn [resolve_deps]; [split; [reflexivity|exact L]|].
  rewrite (pa_fnames _ _ (proj1 L)). destruct (assoc_s d _) as [di|].
  - eapply related_bind; [eapply like_file; exact L|]. intros g g' G.
    match goal with |- context [on_pool ?g v] => match goal with |- context [on_pool ?h w] => assert (like any (on_pool g v) (on_pool h w)) as L1 end end.
    { apply any_on; [exact L|]. intros A. apply alike_files; [exact A|exact (pa_fnames _ _ A)|]. apply F2_upd; [exact (pa_files _ _ A)|].
      intros a b (B1 & B2 & B3 & B4). repeat split; cbn; try assumption. rewrite B2. reflexivity. }
    eapply related_bind; [apply public_alike; exact (proj1 L1)|]. intros x y <-. apply IH. exact L1.
  - eapply related_bind; [apply like_push; exact L|]. intros v1 w1 L1. apply IH. exact L1.
Qed.
Lemma resolve_file_like fuel i f f' v w : blank_file f = blank_file f' -> like any v w -> related (like any) (resolve_file fuel i f v) (resolve_file fuel i f' w).
Proof.
  intros E L. unfold resolve_file.
  assert (fl_deps f = fl_deps f') as <- by (apply (f_equal fl_deps) in E; exact E).
  assert (fl_public f = fl_public f') as <- by (apply (f_equal fl_public) in E; exact E).
  assert (fl_weak f = fl_weak f') as <- by (apply (f_equal fl_weak) in E; exact E).
  eapply related_bind; [apply deps_like; exact L|]. intros [t v1] [t' w1] [T L1]. cbn in T, L1. subst t'.
  eapply related_bind; [eapply like_file; exact L1|]. intros g g' _.
  match goal with |- context [on_pool ?g v1] => match goal with |- context [on_pool ?h w1] => assert (like any (on_pool g v1) (on_pool h w1)) as L2 end end.
  { apply any_on; [exact L1|]. intros A. apply alike_files; [exact A|exact (pa_fnames _ _ A)|]. apply F2_upd; [exact (pa_files _ _ A)|].
    intros a b (B1 & B2 & B3 & B4). repeat split; cbn; assumption. }
  assert (forall z v w, like any v w -> related (like any) (check_import_index (length (fl_deps f)) z v) (check_import_index (length (fl_deps f)) z w)) as C.
  { intros z v2 w2 Q. unfold check_import_index. destruct (_ && _); [exact Q|apply like_push; exact Q]. }
  eapply related_bind; [apply like_fold; [intros; apply C; assumption|exact L2]|]. intros v3 w3 L3.
  apply like_fold; [intros; apply C; assumption|exact L3].
Qed.

Definition here (nm : list (str * def)) (tr : list file_inner) (p : pool) : Prop := p_names p = nm /\ p_files p = tr.

(** references that stand for the same thing *)
Definition ref_same (nm : list (str * def)) (tr : list file_inner) (f : nat) (full : str) (r : rfilter) (a b : str) : Prop :=
  forall g, nth_error tr f = Some g -> exists n d, resolve_name (fi_trans g) nm full a r = RFound n d /\ resolve_name (fi_trans g) nm full b r = RFound n d.
Definition type_same nm tr f full (x x' : fproto) : Prop :=
  (fp_type_name x = [] /\ fp_type_name x' = [] /\ fp_type x' = fp_type x) \/
  (fp_type_name x <> [] /\ fp_type_name x' <> [] /\ (fp_type x = TGroup <-> fp_type x' = TGroup) /\
   ref_same nm tr f full FFieldType (fp_type_name x) (fp_type_name x')).

Section Refs.
  Context (X : externs) (nm : list (str * def)) (tr : list file_inner).
  Let K := here nm tr.
  Notation lk := (like K).

  Lemma ref_like scope a b f path tag r v w : lk v w -> ref_same nm tr f scope r a b ->
    related (with_like K) (resolve_ref scope a f path tag r v) (resolve_ref scope b f path tag r w).
  Proof.
    intros L R. unfold resolve_ref.
    assert (related (fun g g' => file_alike g g' /\ nth_error tr f = Some g) (at_ (p_files (v_pool v)) f) (at_ (p_files (v_pool w)) f)) as Q.
    { pose proof (like_file K v w f L) as Q. destruct L as (_ & _ & _ & T). unfold at_ in *. rewrite <- T.
      destruct (nth_error (p_files (v_pool v)) f), (nth_error (p_files (v_pool w)) f); cbn in *; auto. }
    eapply related_bind; [exact Q|]. intros g g' ((G1 & G2 & G3 & G4) & T). destruct (R _ T) as (n & d & R1 & R2).
    destruct L as (A & E & N & Tr). rewrite <- (pa_names _ _ A), <- G3, N, R1, R2. rewrite <- (blank_place (fi_raw g)), <- (blank_place (fi_raw g')), G4.
    destruct (type_name_place _ _); cbn; [|exact Logic.I]. split; [reflexivity|]. exact (conj A (conj E (conj N Tr))).
  Qed.
  Lemma find_message_like scope a b f path tag v w : lk v w -> ref_same nm tr f scope FMessage a b ->
    related (with_like K) (find_message scope a f path tag v) (find_message scope b f path tag w).
  Proof.
    intros L R. unfold find_message. eapply related_bind; [apply ref_like; eassumption|]. intros [o v1] [o' w1] [E L1]. cbn in E, L1. subst o'.
    destruct o as [d|]; [|split; [reflexivity|exact L1]]. destruct (d_kind d); try exact Logic.I. split; [reflexivity|exact L1].
  Qed.
  Lemma type_like x x' full f path v w : lk v w -> type_same nm tr f full x x' ->
    related (with_like K) (resolve_type (fp_type x) (fp_type_name x) full f path v) (resolve_type (fp_type x') (fp_type_name x') full f path w).
  Proof.
    intros L [(-> & -> & ->)|(N1 & N2 & G & R)]; unfold resolve_type.
    - destruct (fp_type x); try (split; [reflexivity|exact L]);
        (eapply related_bind; [apply like_push; exact L|]; intros v1 w1 L1; split; [reflexivity|exact L1]).
    - destruct (fp_type_name x) as [|c s] eqn:E1; [contradiction|]. destruct (fp_type_name x') as [|c' s'] eqn:E2; [contradiction|].
      eapply related_bind; [apply ref_like; eassumption|]. intros [o v1] [o' w1] [E L1]. cbn in E, L1. subst o'.
      destruct o as [d|]; [|split; [reflexivity|exact L1]]. destruct (d_kind d); try exact Logic.I; (split; [|exact L1]); cbn; try reflexivity.
      f_equal. destruct (fp_type x), (fp_type x'); try reflexivity; exfalso; (assert (TGroup = TGroup) as Q by reflexivity); (apply G in Q || apply G in Q); discriminate.
  Qed.
  Lemma json_like x x' f path v w : lk v w -> blank_field x = blank_field x' -> fp_json x' = Some (json_of x) ->
    (exists g, nth_error tr f = Some g /\ find_file_field (fi_raw g) path = Some x) ->
    resolve_json x f path v = Ok (json_of x) /\ resolve_json x' f path w = Ok (json_of x).
  Proof.
    intros L E J (g & G1 & G2). unfold resolve_json. rewrite J. split; [|reflexivity]. unfold json_of. destruct (fp_json x); [reflexivity|].
    destruct L as (_ & _ & _ & Tr). unfold at_. rewrite Tr, G1. cbn [rbind]. rewrite G2. reflexivity.
  Qed.
  Lemma number_like message x x' f v w : lk v w -> blank_field x = blank_field x' -> (fp_extendee x = None <-> fp_extendee x' = None) ->
    related lk (check_field_number message x f v) (check_field_number message x' f w).
  Proof.
    intros L E P. unfold check_field_number.
    assert (fp_number x = fp_number x') as <- by (apply (f_equal fp_number) in E; exact E).
    eapply related_bind with (R := lk); [destruct (legal_number _); [exact L|apply like_push; exact L]|]. intros v1 w1 L1.
    eapply related_bind; [eapply like_message; exact L1|]. intros m m' <-.
    eapply related_bind; [eapply like_file; exact L1|]. intros g g' (_ & _ & _ & G).
    eapply related_bind with (R := fun a b => blank_message a = blank_message b).
    { assert (option_map blank_message (find_message_proto (fi_raw g) (id_path (m_id m))) = option_map blank_message (find_message_proto (fi_raw g') (id_path (m_id m)))) as Q
        by (rewrite <- !blank_find_message, G; reflexivity).
      destruct (find_message_proto (fi_raw g) _), (find_message_proto (fi_raw g') _); cbn in *; try discriminate; auto. congruence. }
    intros mp mp' M. destruct (blank_parts _ _ M) as (_ & _ & M1 & M2 & _). rewrite <- M1, <- M2.
    eapply related_bind with (R := lk).
    { apply like_fold; [|exact L1]. intros r v2 w2 _ L2. destruct (in_range _ _); [apply like_push; exact L2|exact L2]. }
    intros v2 w2 L2. destruct (fp_extendee x), (fp_extendee x'), (existsb _ _); try exact L2; try (apply like_push; exact L2); exfalso; intuition discriminate.
  Qed.
  Lemma default_like k d f v w : lk v w -> related (with_like K) (parse_default X k d f v) (parse_default X k d f w).
  Proof.
    intros L. unfold parse_default. destruct d as [s|]; [|split; [reflexivity|exact L]].
    assert (related (with_like K) (let! v' := push_err [fst f] (at_spot (inside_spot f [7%Z]) (ErrDefault s)) v in Ok (@None value, v')) (let! v' := push_err [fst f] (at_spot (inside_spot f [7%Z]) (ErrDefault s)) w in Ok (@None value, v'))) as B.
    { eapply related_bind; [apply like_push; exact L|]. intros v1 w1 L1. split; [reflexivity|exact L1]. }
    assert (forall o : res (option value), related (with_like K)
      (let! o := o in match o with Some x => Ok (Some x, v) | None => let! v' := push_err [fst f] (at_spot (inside_spot f [7%Z]) (ErrDefault s)) v in Ok (None, v') end)
      (let! o := o in match o with Some x => Ok (Some x, w) | None => let! v' := push_err [fst f] (at_spot (inside_spot f [7%Z]) (ErrDefault s)) w in Ok (None, v') end)) as C.
    { intros o. eapply related_bind; [apply related_refl|]. intros x y <-. destruct x; [split; [reflexivity|exact L]|exact B]. }
    destruct k; try exact B; try apply C.
    eapply related_bind; [eapply like_enum; exact L|]. intros en en' <-. destruct (find _ _); [split; [reflexivity|exact L]|exact B].
  Qed.

  Definition same_refs (e e' : event) : Prop :=
    match e, e' with
    | EvField path full f _ _ x, EvField _ _ _ _ _ x' =>
        type_same nm tr f full x x' /\ fp_json x' = Some (json_of x) /\ (fp_extendee x = None <-> fp_extendee x' = None) /\
        exists g, nth_error tr f = Some g /\ find_file_field (fi_raw g) path = Some x
    | EvMethod _ full f _ _ m, EvMethod _ _ _ _ _ m' =>
        ref_same nm tr f full FMessage (mp_input m) (mp_input m') /\ ref_same nm tr f full FMessage (mp_output m) (mp_output m')
    | EvExt path full f _ _ x, EvExt _ _ _ _ _ x' =>
        ref_same nm tr f full FMessage (the_extendee x) (the_extendee x') /\
        type_same nm tr f full x x' /\ fp_json x' = Some (json_of x) /\ (fp_extendee x = None <-> fp_extendee x' = None) /\
        exists g, nth_error tr f = Some g /\ find_file_field (fi_raw g) path = Some x
    | _, _ => True
    end.

  Lemma blank_field_parts x x' : blank_field x = blank_field x' ->
    fp_name x = fp_name x' /\ fp_number x = fp_number x' /\ fp_label x = fp_label x' /\ fp_default x = fp_default x' /\
    fp_oneof x = fp_oneof x' /\ fp_options x = fp_options x' /\ fp_optional x = fp_optional x'.
  Proof. destruct x, x'. unfold blank_field. cbn. intros H. inversion H. auto 10. Qed.
  Lemma packed_like c k sy x x' : blank_field x = blank_field x' -> packed_of c k sy x = packed_of c k sy x'.
  Proof. intros E. unfold packed_of. destruct (blank_field_parts _ _ E) as (_ & _ & _ & _ & _ & -> & _). reflexivity. Qed.
  Lemma presence_like c k sy x x' : blank_field x = blank_field x' -> presence_of c k sy x = presence_of c k sy x'.
  Proof. intros E. unfold presence_of. destruct (blank_field_parts _ _ E) as (_ & _ & _ & _ & -> & _ & ->). reflexivity. Qed.
  Lemma default_of_like k x x' f v w : lk v w -> blank_field x = blank_field x' -> related (with_like K) (default_of X k x f v) (default_of X k x' f w).
  Proof.
    intros L E. unfold default_of. destruct (blank_field_parts _ _ E) as (_ & _ & _ & -> & _).
    destruct k; [apply default_like; exact L|split; [reflexivity|exact L]].
  Qed.
  Lemma on_message_like i g v w : lk v w -> lk (on_message i g v) (on_message i g w).
  Proof. intros L. unfold on_message. apply like_on; [exact L| |auto]. intros A. apply alike_messages; [exact A|]. rewrite (pa_msgs _ _ A). reflexivity. Qed.
  Lemma opt_push_like {A} (o : option A) l er v w : lk v w -> related lk (match o with Some _ => push_err l er v | None => Ok v end) (match o with Some _ => push_err l er w | None => Ok w end).
  Proof. intros L. destruct o; [apply like_push; exact L|exact L]. Qed.

  Lemma field_like path full f message i x x' v w : lk v w -> blank_field x = blank_field x' ->
    same_refs (EvField path full f message i x) (EvField path full f message i x') ->
    related lk (resolve_field X path full f message i x v) (resolve_field X path full f message i x' w).
  Proof.
    intros L E (T & J & P & Lo). destruct (blank_field_parts _ _ E) as (E1 & E2 & E3 & E4 & E5 & E6 & E7). unfold resolve_field.
    eapply related_bind; [eapply like_message; exact L|]. intros m m' <-.
    eapply related_bind; [apply like_assert; [exact L|reflexivity]|]. clear v w L. intros v w L.
    eapply related_bind; [eapply like_file; exact L|]. intros g g' (G1 & _).
    eapply related_bind; [apply number_like; eassumption|]. clear v w L. intros v w L.
    eapply related_bind; [apply type_like; eassumption|]. clear v w L. intros [k v] [k' w] [Q L]. cbn in Q, L. subst k'.
    destruct (json_like x x' f path v w L E J Lo) as [-> ->]. cbn [rbind].
    eapply related_bind; [apply default_of_like; eassumption|]. clear v w L. intros [d v] [d' w] [Q L]. cbn in Q, L. subst d'. clear m.
    eapply related_bind; [eapply like_message; exact L|]. intros m m' <-.
    eapply related_bind with (R := with_like K).
    { rewrite <- E5. destruct (fp_oneof x) as [z|]; [|split; [reflexivity|exact L]]. destruct (_ || _).
      - eapply related_bind; [apply like_push; exact L|]. intros v1 w1 L1. split; [reflexivity|exact L1].
      - split; [reflexivity|]. apply on_message_like. exact L. }
    clear v w L. intros [oo v] [oo' w] [Q L]. cbn in Q, L. subst oo'.
    rewrite <- E1, <- E2, <- E3, <- G1, <- (packed_like _ _ _ x x' E), <- (presence_like _ _ _ x x' E).
    pose proof (on_message_like message (m_push_field (FieldI (mk_id f path full (fp_name x)) (as_u32 (fp_number x)) (json_of x) (or_double k) oo
      (packed_of (fp_label x) k (fi_syntax g) x) (presence_of (fp_label x) k (fi_syntax g) x) (fp_label x) d) (fp_name x) i) v w L) as L1.
    eapply related_bind; [apply opt_push_like; exact L1|]. clear v w L L1. intros v w L.
    eapply related_bind; [apply opt_push_like; exact L|]. clear v w L. intros v w L. apply opt_push_like. exact L.
  Qed.
  Lemma method_like path full f s i m m' v w : lk v w -> mp_name m = mp_name m' ->
    same_refs (EvMethod path full f s i m) (EvMethod path full f s i m') ->
    related lk (resolve_method path full f s i m v) (resolve_method path full f s i m' w).
  Proof.
    intros L E (R1 & R2). unfold resolve_method.
    eapply related_bind; [eapply like_service; exact L|]. intros si si' <-.
    eapply related_bind; [apply like_assert; [exact L|reflexivity]|]. clear v w L. intros v w L.
    eapply related_bind; [apply find_message_like; eassumption|]. clear v w L. intros [a v] [a' w] [Q L]. cbn in Q, L. subst a'.
    eapply related_bind; [apply find_message_like; eassumption|]. clear v w L. intros [b v] [b' w] [Q L]. cbn in Q, L. subst b'.
    cbn. apply like_on; [exact L| |auto]. intros A. apply alike_services; [exact A|]. rewrite (pa_svcs _ _ A), E. reflexivity.
  Qed.
  Lemma ext_like path full f par i x x' v w : lk v w -> blank_field x = blank_field x' ->
    same_refs (EvExt path full f par i x) (EvExt path full f par i x') ->
    related lk (resolve_ext X path full f par i x v) (resolve_ext X path full f par i x' w).
  Proof.
    intros L E (R & T & J & P & Lo). destruct (blank_field_parts _ _ E) as (E1 & E2 & E3 & E4 & E5 & E6 & E7). unfold resolve_ext.
    fold (the_extendee x) (the_extendee x').
    eapply related_bind; [apply like_assert; [exact L|rewrite (pa_exts _ _ (proj1 L)); reflexivity]|]. clear v w L. intros v w L.
    eapply related_bind; [apply find_message_like; eassumption|]. clear v w L. intros [a v] [a' w] [Q L]. cbn in Q, L. subst a'.
    eapply related_bind with (R := lk).
    { destruct a as [a|]; [|exact L]. eapply related_bind; [eapply like_message; exact L|]. intros mi mi' _. apply number_like; try assumption. apply on_message_like. exact L. }
    clear v w L. intros v w L.
    eapply related_bind; [eapply like_file; exact L|]. intros g g' (G1 & _).
    eapply related_bind; [apply type_like; eassumption|]. clear v w L. intros [k v] [k' w] [Q L]. cbn in Q, L. subst k'.
    destruct (json_like x x' f path v w L E J Lo) as [-> ->]. cbn [rbind].
    eapply related_bind; [apply default_of_like; eassumption|]. clear v w L. intros [d v] [d' w] [Q L]. cbn in Q, L. subst d'.
    rewrite <- E1, <- E2, <- E3, <- G1, <- (packed_like _ _ _ x x' E). cbn. apply like_on; [exact L| |auto]. intros A. apply alike_exts; [exact A|]. rewrite (pa_exts _ _ A). reflexivity.
  Qed.
End Refs.

Lemma enum_value_like X path full f en i x v w : like any v w -> related (like any) (resolve_enum_value X path full f en i x v) (resolve_enum_value X path full f en i x w).
Proof.
  intros L. unfold resolve_enum_value. eapply related_bind with (R := like any).
  { unfold check_enum_number. eapply related_bind; [eapply like_enum; exact L|]. intros e e' <-. eapply related_bind; [eapply like_file; exact L|]. intros g g' (_ & _ & _ & G).
    assert (find_enum_proto (fi_raw g) (id_path (e_id e)) = find_enum_proto (fi_raw g') (id_path (e_id e))) as -> by (rewrite <- (blank_find_enum (fi_raw g)), <- (blank_find_enum (fi_raw g')), G; reflexivity).
    eapply related_bind; [apply related_refl|]. intros a b <-. apply like_fold; [|exact L]. intros r v2 w2 _ L2. destruct (in_range_incl _ _); [apply like_push; exact L2|exact L2]. }
  clear v w L. intros v w L. eapply related_bind; [eapply like_enum; exact L|]. intros e e' <-. destruct (x_search X _ _) as [ps found].
  eapply related_bind with (R := like any); [destruct (_ && _); [apply like_push; exact L|exact L]|]. clear v w L. intros v w L.
  match goal with |- context [on_pool ?g v] => match goal with |- context [on_pool ?h w] => assert (like any (on_pool g v) (on_pool h w)) as L1 end end.
  { apply any_on; [exact L|]. intros A. apply alike_enums; [exact A|]. rewrite (pa_enums _ _ A). reflexivity. }
  destruct (assoc_s _ _); [apply like_push; exact L1|exact L1].
Qed.
Lemma service_like path full f i s s' v w : sp_name s = sp_name s' -> like any v w -> related (like any) (resolve_service path full f i s v) (resolve_service path full f i s' w).
Proof.
  intros E L. unfold resolve_service. eapply related_bind; [apply like_assert; [exact L|rewrite (pa_svcs _ _ (proj1 L)); reflexivity]|]. clear v w L. intros v w L. cbn.
  apply any_on; [exact L|]. intros A. apply alike_services; [exact A|]. rewrite (pa_svcs _ _ A), E. reflexivity.
Qed.

Lemma resolve_like X fuel e e' v w : like any v w -> blank_event e = blank_event e' -> same_refs (p_names (v_pool v)) (p_files (v_pool v)) e e' ->
  related (like any) (resolve_step X fuel e v) (resolve_step X fuel e' w).
Proof.
  intros L E R. assert (like (here (p_names (v_pool v)) (p_files (v_pool v))) v w) as L'.
  { destruct L as (A & B & _). split; [exact A|]. split; [exact B|]. split; reflexivity. }
  destruct e as [pa i f|pa fu f par i m|pa fu f m i x|pa fu f m i n|pa fu f i s|pa fu f s i m|pa fu f par i x|pa fu f x i y|pa fu f par i x];
    destruct e' as [pa' i' f'|pa' fu' f' par' i' m'|pa' fu' f' m' i' x'|pa' fu' f' m' i' n'|pa' fu' f' i' s'|pa' fu' f' s' i' m'|pa' fu' f' par' i' x'|pa' fu' f' x' i' y'|pa' fu' f' par' i' x'];
    try discriminate; cbn [blank_event] in E; cbn [resolve_step]; try exact L;
    try (assert (pa = pa' /\ fu = fu' /\ f = f' /\ i = i') as (<- & <- & <- & <-) by (repeat split; congruence)).
  - assert (i = i') as <- by congruence. apply resolve_file_like; [congruence|exact L].
  - assert (m = m') as <- by congruence. eapply related_impl; [intros ? ?; apply like_any|]. apply field_like; [exact L'|congruence|exact R].
  - assert (blank_service s = blank_service s') as Q by congruence. apply (f_equal sp_name) in Q. apply service_like; assumption.
  - assert (s = s') as <- by congruence. assert (blank_method m = blank_method m') as Q by congruence. apply (f_equal mp_name) in Q.
    eapply related_impl; [intros ? ?; apply like_any|]. apply method_like; [exact L'|exact Q|exact R].
  - assert (x = x') as <- by congruence. assert (y = y') as <- by congruence. apply enum_value_like. exact L.
  - assert (par = par') as <- by congruence. eapply related_impl; [intros ? ?; apply like_any|]. apply ext_like; [exact L'|congruence|exact R].
Qed.
Lemma resolve_all_like X fuel es es' : map blank_event es = map blank_event es' -> forall v w, like any v w ->
  (forall done e rest e' v1, es = done ++ e :: rest -> nth_error es' (length done) = Some e' -> fold_res (resolve_step X fuel) done v = Ok v1 ->
     same_refs (p_names (v_pool v1)) (p_files (v_pool v1)) e e') ->
  related (like any) (fold_res (resolve_step X fuel) es v) (fold_res (resolve_step X fuel) es' w).
Proof.
  revert es'. induction es as [|e es IH]; intros [|e' es'] E v w L H; try discriminate; [exact L|]. cbn [map] in E. apply cons_inj in E. destruct E as [E0 E1]. cbn [fold_res].
  pose proof (resolve_like X fuel e e' v w L E0 (H [] e es e' v eq_refl eq_refl eq_refl)) as Q.
  destruct (resolve_step X fuel e v) as [v1| | |] eqn:S1, (resolve_step X fuel e' w) as [w1| | |]; cbn in Q; try contradiction; cbn [rbind]; try exact Q.
  apply IH; [exact E1|exact Q|]. intros done a rest a' v2 Es Ea Hf. apply (H (e :: done) a rest a' v2); [rewrite Es; reflexivity|exact Ea|].
  cbn [fold_res]. rewrite S1. exact Hf.
Qed.
