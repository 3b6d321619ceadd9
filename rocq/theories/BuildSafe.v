(** Building a pool comes back: the two phases of a build neither panic nor run
    out of stack, whether or not they report errors, under conditions on the
    files that Prop_Safe.v states and shows to be needed. *)
From Coq Require Import Permutation Sorted.
From Verif Require Import Base BaseProofs Value Descr Proto Build VisitProofs EventProofs BuildFrame BuildNames BuildQuiet BuildResolve BuildInv DeclSpec DeclProofs PoolFacts PoolMembers.

(** ** Folds that come back *)

Lemma fold_safe {A S} (g : A -> S -> res S) (P : list A -> S -> Prop) l :
  (forall done e rest s, l = done ++ e :: rest -> P done s -> exists s', g e s = Ok s' /\ P (done ++ [e]) s') ->
  forall s, P [] s -> exists s', fold_res g l s = Ok s' /\ P l s'.
Proof.
  intros H s H0.
  assert (forall todo done s, l = done ++ todo -> P done s -> exists s', fold_res g todo s = Ok s' /\ P l s') as G.
  2: { exact (G l [] s eq_refl H0). }
  clear s H0. induction todo as [|e todo IH]; intros done s El Hp; cbn [fold_res].
  - exists s. rewrite app_nil_r in El. subst done. auto.
  - destruct (H _ _ _ _ El Hp) as [s1 [E1 P1]]. rewrite E1. cbn [rbind].
    apply (IH (done ++ [e])); [rewrite <- app_assoc; exact El|exact P1].
Qed.
Lemma fold_safe_all {A S} (g : A -> S -> res S) (P : S -> Prop) l :
  (forall a s, In a l -> P s -> exists s', g a s = Ok s' /\ P s') ->
  forall s, P s -> exists s', fold_res g l s = Ok s' /\ P s'.
Proof.
  induction l as [|a l IH]; intros H s Hs; cbn [fold_res]; [eauto|].
  destruct (H a s (or_introl eq_refl) Hs) as [s1 [E1 P1]]. rewrite E1. cbn [rbind].
  apply IH; [|exact P1]. intros b s' Hb. apply H. right. exact Hb.
Qed.

(** an error can be pushed when the files it points at are there; it leaves the pool *)
Lemma push_safe l e v : (forall f, In f l -> (f < length (p_files (v_pool v)))%nat) ->
  exists v', push_err l e v = Ok v' /\ v_pool v' = v_pool v.
Proof.
  intros H. unfold push_err.
  replace (forallb (label_ok (v_pool v)) l) with true; [eexists; split; [reflexivity|reflexivity]|].
  symmetry. apply forallb_forall. intros f Hf. unfold label_ok. apply Nat.ltb_lt. apply H, Hf.
Qed.

(** ** The position of a call among its siblings *)

Definition ev_pos (e : event) : nat :=
  match e with
  | EvField _ _ _ _ i _ | EvOneof _ _ _ _ i _ | EvMethod _ _ _ _ i _ | EvEnumValue _ _ _ _ i _ => i
  | _ => O
  end.
Lemma mapi_split {A B} (g : nat -> A -> B) l : forall i a e r, mapi i g l = a ++ e :: r ->
  exists x, e = g (i + length a)%nat x.
Proof.
  induction l as [|x l IH]; intros i a e r H; cbn in H; [destruct a; discriminate|].
  destruct a as [|y a]; cbn in H; inversion H; subst.
  - exists x. cbn. rewrite Nat.add_0_r. reflexivity.
  - destruct (IH _ _ _ _ H2) as [x' E]. exists x'. rewrite E. cbn. f_equal. lia.
Qed.
Lemma kid_pos o fs done e rest k i : visit o fs = done ++ e :: rest -> owner e = Some (k, i) ->
  ev_pos e = length (kids k i done) /\ (oget o k <= i)%nat.
Proof.
  intros E O. destruct (visit_cc o fs) as [Cl Co].
  assert (In e (visit o fs)) as Hin by (rewrite E; apply in_or_app; right; left; reflexivity).
  destruct (Cl _ _ _ Hin O) as [h [Hh Hd]].
  split.
  2: { pose proof (head_range _ _ _ _ _ (visit_scoped o fs) Hh Hd). lia. }
  destruct (Co h Hh) as [C1 C2].
  assert (owned k i e = true) as Ow by (unfold owned; rewrite O, !Nat.eqb_refl; reflexivity).
  assert (kids k i (visit o fs) = kids k i done ++ e :: kids k i rest) as Ek.
  { rewrite E, kids_app. f_equal. unfold kids. cbn [filter]. rewrite Ow. reflexivity. }
  destruct Hd as [[l Hl]|[-> [g Hg]]].
  - specialize (C1 _ _ _ Hl). rewrite Ek in C1.
    destruct h; cbn [heads] in Hl; try (destruct Hl; fail).
    + destruct Hl as [Hl|[Hl|[]]]; revert C1; injection Hl as <- <- <-; intros C1; unfold g_fields, g_oneofs in C1;
        symmetry in C1; destruct (mapi_split _ _ _ _ _ _ C1) as [x ->]; reflexivity.
    + destruct Hl as [Hl|[]]; revert C1; injection Hl as <- <- <-; intros C1. unfold g_methods in C1.
      symmetry in C1; destruct (mapi_split _ _ _ _ _ _ C1) as [x ->]; reflexivity.
  - destruct (C2 _ _ Hg) as [scope C]. rewrite Ek in C.
    destruct h; cbn [ehead] in Hg; try discriminate. inversion Hg; subst. unfold g_values in C.
    symmetry in C; destruct (mapi_split _ _ _ _ _ _ C) as [x ->]; reflexivity.
Qed.

(** ** Phase 1 *)

Record NS (o : offsets) (done : list event) (v : vst) : Prop := {
  ns_files : length (p_files (v_pool v)) = of_file (adv o done);
  ns_msgs : length (p_messages (v_pool v)) = of_msg (adv o done);
  ns_enums : length (p_enums (v_pool v)) = of_enum (adv o done);
  ns_names : Forall (fun nd => (d_file (snd nd) < length (p_files (v_pool v)))%nat) (p_names (v_pool v));
  ns_oneofs : forall i m, (of_msg o <= i)%nat -> nth_error (p_messages (v_pool v)) i = Some m ->
    length (m_oneofs m) = length (kids 1 i done);
  ns_values : forall i e, (of_enum o <= i)%nat -> nth_error (p_enums (v_pool v)) i = Some e ->
    length (e_values e) = length (kids 3 i done)
}.

(** the same but for names and errors *)
Definition same_shape (v v' : vst) : Prop :=
  p_files (v_pool v') = p_files (v_pool v) /\ p_messages (v_pool v') = p_messages (v_pool v) /\
  p_enums (v_pool v') = p_enums (v_pool v).
Lemma shape_trans a b c : same_shape a b -> same_shape b c -> same_shape a c.
Proof. unfold same_shape. intuition congruence. Qed.
Definition names_in (v : vst) : Prop :=
  Forall (fun nd => (d_file (snd nd) < length (p_files (v_pool v)))%nat) (p_names (v_pool v)).

Lemma assoc_s_in {A} k (a : A) l : assoc_s k l = Some a -> exists k', In (k', a) l.
Proof.
  induction l as [|[k' x] l IH]; cbn; [discriminate|]. destruct (bytes_eqb k k'); intros H.
  - inversion H; subst. eauto.
  - destruct (IH H) as [k2 H2]. eauto.
Qed.
Lemma add_name_safe f n path k v : names_in v -> (f < length (p_files (v_pool v)))%nat ->
  exists v', add_name f n path k v = Ok v' /\ same_shape v v' /\ names_in v'.
Proof.
  intros Hn Hf. unfold add_name. destruct (assoc_s n (p_names (v_pool v))) as [d|] eqn:E.
  - destruct (_ && _).
    + exists v. repeat split; auto.
    + assert (d_file d < length (p_files (v_pool v)))%nat as Hd.
      { destruct (assoc_s_in _ _ _ E) as [k' Hk]. unfold names_in in Hn. rewrite Forall_forall in Hn.
        exact (Hn _ Hk). }
      destruct (push_safe [d_file d; f] (at_spot (f, path) (ErrDupName n)) v) as [v' [E' P']].
      { cbn. intros g [<- |[<- |[]]]; assumption. }
      exists v'. split; [exact E'|]. split; [unfold same_shape; rewrite P'; auto|]. unfold names_in. rewrite P'. exact Hn.
  - eexists. split; [reflexivity|]. split; [repeat split|]. unfold names_in. cbn. constructor; [exact Hf|exact Hn].
Qed.
Lemma add_pkgs_safe i path l : forall v, names_in v -> (i < length (p_files (v_pool v)))%nat ->
  exists v', fold_res (fun pre => add_name i pre path DPackage) l v = Ok v' /\ same_shape v v' /\ names_in v'.
Proof.
  induction l as [|n l IH]; intros v Hn Hi; cbn [fold_res]; [exists v; repeat split; auto|].
  destruct (add_name_safe i n path DPackage v Hn Hi) as [v1 [E1 [S1 N1]]]. rewrite E1. cbn [rbind].
  destruct (IH v1 N1) as [v2 [E2 [S2 N2]]]; [rewrite (proj1 S1); exact Hi|].
  exists v2. split; [exact E2|]. split; [eapply shape_trans; eassumption|exact N2].
Qed.
Lemma check_camel_safe f fs : forall i seen v, (fst f < length (p_files (v_pool v)))%nat ->
  exists v', check_camel f i seen fs v = Ok v' /\ v_pool v' = v_pool v.
Proof.
  induction fs as [|x fs IH]; intros i seen v Hf; cbn [check_camel]; [eauto|].
  destruct (existsb (bytes_eqb (to_lower_without_underscores (fp_name x))) seen); [|apply IH, Hf].
  destruct (push_safe [fst f; fst f] (at_spot (inside_spot f [2; Z.of_nat i; 1]%Z) ErrCamel) v) as [v1 [E1 P1]]; [intros g [<- |[<- |[]]]; exact Hf|].
  rewrite E1. cbn [rbind]. destruct (IH (Datatypes.S i) seen v1) as [v2 [E2 P2]]; [rewrite P1; exact Hf|].
  exists v2. split; [exact E2|congruence].
Qed.

Lemma NS_step o fs done e rest v :
  (forall path i f, In (EvFile path i f) (visit o fs) -> file_syntax f <> None) ->
  visit o fs = done ++ e :: rest -> NS o done v ->
  exists v', names_step e v = Ok v' /\ NS o (done ++ [e]) v'.
Proof.
  intros Hsy E H.
  assert (scoped o (done ++ e :: rest)) as Hs by (rewrite <- E; apply visit_scoped).
  destruct (adv1_scoped_app _ _ _ _ Hs) as [Hsc Hs1].
  assert (In e (visit o fs)) as Hin by (rewrite E; apply in_or_app; right; left; reflexivity).
  assert (forall f, S f = of_file (adv o done) -> (f < length (p_files (v_pool v)))%nat) as HF.
  { intros f Hf. rewrite (ns_files _ _ _ H). lia. }
  (* steps that only add a name *)
  assert (forall f n path k, S f = of_file (adv o done) -> adv1 (adv o done) e = adv o done \/
            (of_file (adv1 (adv o done) e) = of_file (adv o done) /\ of_msg (adv1 (adv o done) e) = of_msg (adv o done) /\
             of_enum (adv1 (adv o done) e) = of_enum (adv o done)) ->
            (forall i, owned 1 i e = false) -> (forall i, owned 3 i e = false) ->
            exists v', add_name f n path k v = Ok v' /\ NS o (done ++ [e]) v') as Simple.
  { intros f n path k Hf Ha O1 O3.
    destruct (add_name_safe f n path k v (ns_names _ _ _ H) (HF _ Hf)) as [v' [E' [[S1 [S2 S3]] N]]].
    exists v'. split; [exact E'|].
    assert (of_file (adv1 (adv o done) e) = of_file (adv o done) /\ of_msg (adv1 (adv o done) e) = of_msg (adv o done) /\
             of_enum (adv1 (adv o done) e) = of_enum (adv o done)) as [A1 [A2 A3]]
      by (destruct Ha as [-> |Ha]; auto).
    constructor; rewrite ?adv_snoc, ?S1, ?S2, ?S3, ?A1, ?A2, ?A3; try apply H.
    - rewrite <- S1. exact N.
    - intros i m Hi Hm. rewrite kids_snoc, O1, app_nil_r. exact (ns_oneofs _ _ _ H i m Hi Hm).
    - intros i m Hi Hm. rewrite kids_snoc, O3, app_nil_r. exact (ns_values _ _ _ H i m Hi Hm). }
  destruct e; cbn [names_step]; cbn [scoped1] in Hs1.
  - (* file *)
    subst index. unfold names_file. rewrite (ns_files _ _ _ H), Nat.eqb_refl. cbn [assert rbind].
    destruct (file_syntax f) as [sy|] eqn:Sy; [|exfalso; exact (Hsy _ _ _ Hin Sy)].
    match goal with |- context [rbind (match ?a with Some _ => push_err ?l ?er ?w | None => Ok ?w end) _] =>
      assert (exists v2, (match a with Some _ => push_err l er w | None => Ok w end) = Ok v2 /\ v_pool v2 = v_pool w) as [v2 [E2 P2]] end.
    { destruct (assoc_s _ _); [apply push_safe; intros ? []|eauto]. }
    rewrite E2. cbn [rbind].
    match goal with |- context [on_pool ?g v2] => set (v3 := on_pool g v2) end.
    assert (p_files (v_pool v3) = p_files (v_pool v) ++ [FileI sy f [] []]) as F3 by (cbn; rewrite P2; reflexivity).
    assert (p_messages (v_pool v3) = p_messages (v_pool v)) as M3 by (cbn; rewrite P2; reflexivity).
    assert (p_enums (v_pool v3) = p_enums (v_pool v)) as N3 by (cbn; rewrite P2; reflexivity).
    assert (names_in v3) as I3.
    { unfold names_in. rewrite F3. replace (p_names (v_pool v3)) with (p_names (v_pool v)) by (cbn; rewrite P2; reflexivity).
      rewrite app_length. eapply Forall_impl; [|exact (ns_names _ _ _ H)]. cbn. intros; lia. }
    assert (forall w, same_shape v3 w -> names_in w -> NS o (done ++ [EvFile path (of_file (adv o done)) f]) w) as Done.
    { intros w [W1 [W2 W3]] WN. constructor; rewrite ?adv_snoc; cbn [adv1 of_file of_msg of_enum].
      - rewrite W1, F3, app_length, (ns_files _ _ _ H). cbn. lia.
      - rewrite W2, M3. apply H.
      - rewrite W3, N3. apply H.
      - exact WN.
      - intros i m Hi. rewrite W2, M3, kids_snoc_head by reflexivity. exact (ns_oneofs _ _ _ H i m Hi).
      - intros i m Hi. rewrite W3, N3, kids_snoc_head by reflexivity. exact (ns_values _ _ _ H i m Hi). }
    assert (of_file (adv o done) < length (p_files (v_pool v3)))%nat as L3.
    { rewrite F3, app_length, (ns_files _ _ _ H). cbn. lia. }
    destruct (fl_package f) as [|c pkg]; [exists v3; split; [reflexivity|apply Done; [repeat split|exact I3]]|].
    destruct (add_pkgs_safe (of_file (adv o done)) (path ++ [2%Z]) (before_dots [] (c :: pkg)) v3 I3 L3) as [v4 [E4 [S4 N4]]].
    rewrite E4. cbn [rbind].
    destruct (add_name_safe (of_file (adv o done)) (c :: pkg) (path ++ [2%Z]) DPackage v4 N4) as [v5 [E5 [S5 N5]]];
      [rewrite (proj1 S4); exact L3|].
    exists v5. split; [exact E5|]. apply Done; [eapply shape_trans; eassumption|exact N5].
  - (* message *)
    destruct Hs1 as [Hf [-> Hp]]. unfold names_message.
    destruct (add_name_safe file full (path ++ [1%Z]) (DMessage (of_msg (adv o done))) v (ns_names _ _ _ H) (HF _ Hf))
      as [v1 [E1 [[S1 [S2 S3]] N1]]].
    rewrite E1. cbn [rbind]. rewrite S2, (ns_msgs _ _ _ H), Nat.eqb_refl. cbn [assert rbind].
    match goal with |- context [on_pool ?g v1] => set (v2 := on_pool g v1) end.
    assert (p_files (v_pool v2) = p_files (v_pool v)) as F2 by (cbn; exact S1).
    assert (NS o (done ++ [EvMessage path full file parent (of_msg (adv o done)) m]) v2) as N2.
    { constructor; rewrite ?adv_snoc; cbn [adv1 of_file of_msg of_enum].
      - rewrite F2. apply H.
      - cbn. rewrite app_length, S2, (ns_msgs _ _ _ H). cbn. lia.
      - cbn. rewrite S3. apply H.
      - cbn. exact N1.
      - intros i m' Hi. rewrite kids_snoc_head by reflexivity. cbn. rewrite S2. intros Hm.
        destruct (Nat.lt_ge_cases i (length (p_messages (v_pool v)))).
        + rewrite nth_error_app1 in Hm by assumption. exact (ns_oneofs _ _ _ H i m' Hi Hm).
        + rewrite nth_error_app2 in Hm by assumption.
          destruct (i - length (p_messages (v_pool v)))%nat as [|n] eqn:Ei; cbn in Hm; [|destruct n; discriminate].
          inversion Hm; subst. cbn. rewrite (kids_fresh o done 1 i Hsc); [reflexivity|].
          cbn. rewrite <- (ns_msgs _ _ _ H). assumption.
      - intros i m' Hi. rewrite kids_snoc_head by reflexivity. cbn. rewrite S3. exact (ns_values _ _ _ H i m' Hi). }
    pose proof (HF _ Hf) as Lf. rewrite <- F2 in Lf.
    destruct (nth_error (p_files (v_pool v2)) file) as [fi|] eqn:Ef; [|apply nth_error_None in Ef; lia].
    unfold at_. rewrite Ef. cbn [rbind]. destruct (fi_syntax fi); [eauto|].
    destruct (check_camel_safe (file, path) (dp_fields m) 0%nat [] v2 Lf) as [v3 [E3 P3]].
    exists v3. split; [exact E3|]. destruct N2. constructor; rewrite ?P3; assumption.
  - apply Simple; cbn; try tauto. 
  - (* oneof *)
    destruct Hs1 as [Hf Hm]. unfold names_oneof.
    destruct (add_name_safe file full (path ++ [1%Z]) (DOneof message) v (ns_names _ _ _ H) (HF _ Hf))
      as [v1 [E1 [[S1 [S2 S3]] N1]]].
    rewrite E1. cbn [rbind]. rewrite S2.
    destruct (nth_error (p_messages (v_pool v)) message) as [m|] eqn:Em;
      [|apply nth_error_None in Em; rewrite (ns_msgs _ _ _ H) in Em; lia].
    unfold at_. rewrite Em. cbn [rbind].
    destruct (kid_pos _ _ _ _ _ 1 message E eq_refl) as [Kp Ko]. cbn in Kp, Ko.
    rewrite (ns_oneofs _ _ _ H _ _ Ko Em), <- Kp, Nat.eqb_refl. cbn [assert rbind].
    eexists. split; [reflexivity|]. constructor; rewrite ?adv_snoc; cbn [adv1 v_pool on_pool p_files p_messages p_enums set_messages p_names].
    + rewrite S1. apply H.
    + rewrite upd_length, S2. apply H.
    + rewrite S3. apply H.
    + exact N1.
    + intros i m' Hi. rewrite S2, nth_upd, kids_snoc, app_length. unfold owned. cbn [owner].
      destruct (Nat.eqb_spec message i) as [-> |Hne].
      * rewrite Em. cbn [option_map]. intros Hx. apply Some_inj in Hx. subst m'. cbn. rewrite Nat.eqb_refl, app_length.
        rewrite (ns_oneofs _ _ _ H _ _ Ko Em). reflexivity.
      * intros Hx. destruct (Nat.eqb_spec i message); [congruence|]. cbn. rewrite (ns_oneofs _ _ _ H _ _ Hi Hx). lia.
    + intros i m' Hi. rewrite S3, kids_snoc, app_length. unfold owned. cbn [owner Nat.eqb andb length]. rewrite Nat.add_0_r.
      exact (ns_values _ _ _ H i m' Hi).
  - apply Simple; cbn; try tauto. 
  - apply Simple; cbn; try tauto. 
  - (* enum *)
    destruct Hs1 as [Hf [-> Hp]]. unfold names_enum.
    destruct (add_name_safe file full (path ++ [1%Z]) (DEnum (of_enum (adv o done))) v (ns_names _ _ _ H) (HF _ Hf))
      as [v1 [E1 [[S1 [S2 S3]] N1]]].
    rewrite E1. cbn [rbind].
    pose proof (HF _ Hf) as Lf. rewrite <- S1 in Lf.
    match goal with |- context [rbind ?a _] =>
      assert (exists v2, a = Ok v2 /\ v_pool v2 = v_pool v1) as [v2 [E2 P2]] end.
    { destruct (ep_values e) as [|x xs]; [apply push_safe; intros g [<- |[]]; exact Lf|].
      destruct (nth_error (p_files (v_pool v1)) file) as [fi|] eqn:Ef; [|apply nth_error_None in Ef; lia].
      unfold at_. rewrite Ef. cbn [rbind]. destruct (fi_syntax fi); [eauto|]. destruct (snd x =? 0)%Z; [eauto|].
      apply push_safe. intros g [<- |[]]; exact Lf. }
    rewrite E2. cbn [rbind]. rewrite P2, S3, (ns_enums _ _ _ H), Nat.eqb_refl. cbn [assert rbind].
    eexists. split; [reflexivity|]. constructor; rewrite ?adv_snoc; cbn [adv1 of_file of_msg of_enum v_pool on_pool p_files p_messages p_enums set_enums p_names]; rewrite ?P2.
    + rewrite S1. apply H.
    + rewrite S2. apply H.
    + rewrite app_length, S3, (ns_enums _ _ _ H). cbn. lia.
    + exact N1.
    + intros i m' Hi. rewrite kids_snoc_head by reflexivity. rewrite S2. exact (ns_oneofs _ _ _ H i m' Hi).
    + intros i m' Hi. rewrite kids_snoc_head by reflexivity. rewrite S3. intros Hm.
      destruct (Nat.lt_ge_cases i (length (p_enums (v_pool v)))).
      * rewrite nth_error_app1 in Hm by assumption. exact (ns_values _ _ _ H i m' Hi Hm).
      * rewrite nth_error_app2 in Hm by assumption.
        destruct (i - length (p_enums (v_pool v)))%nat as [|n] eqn:Ei; cbn in Hm; [|destruct n; discriminate].
        inversion Hm; subst. cbn. rewrite (kids_fresh o done 3 i Hsc); [reflexivity|].
        cbn. rewrite <- (ns_enums _ _ _ H). assumption.
  - (* enum value *)
    destruct Hs1 as [Hf Hm]. unfold names_enum_value.
    destruct (add_name_safe file full (path ++ [1%Z]) (DEnumValue enum) v (ns_names _ _ _ H) (HF _ Hf))
      as [v1 [E1 [[S1 [S2 S3]] N1]]].
    rewrite E1. cbn [rbind]. rewrite S3.
    destruct (nth_error (p_enums (v_pool v)) enum) as [m|] eqn:Em;
      [|apply nth_error_None in Em; rewrite (ns_enums _ _ _ H) in Em; lia].
    unfold at_. rewrite Em. cbn [rbind].
    destruct (kid_pos _ _ _ _ _ 3 enum E eq_refl) as [Kp Ko]. cbn in Kp, Ko.
    rewrite (ns_values _ _ _ H _ _ Ko Em), <- Kp, Nat.eqb_refl. cbn [assert rbind].
    eexists. split; [reflexivity|]. constructor; rewrite ?adv_snoc; cbn [adv1 v_pool on_pool p_files p_messages p_enums set_enums p_names].
    + rewrite S1. apply H.
    + rewrite S2. apply H.
    + rewrite upd_length, S3. apply H.
    + exact N1.
    + intros i m' Hi. rewrite S2, kids_snoc, app_length. unfold owned. cbn [owner Nat.eqb andb length]. rewrite Nat.add_0_r.
      exact (ns_oneofs _ _ _ H i m' Hi).
    + intros i m' Hi. rewrite S3, nth_upd, kids_snoc, app_length. unfold owned. cbn [owner].
      destruct (Nat.eqb_spec enum i) as [-> |Hne].
      * rewrite Em. cbn [option_map]. intros Hx. apply Some_inj in Hx. subst m'. cbn. rewrite Nat.eqb_refl, app_length.
        rewrite (ns_values _ _ _ H _ _ Ko Em). reflexivity.
      * intros Hx. destruct (Nat.eqb_spec i enum); [congruence|]. cbn. rewrite (ns_values _ _ _ H _ _ Hi Hx). lia.
  - apply Simple; cbn; try tauto. 
Qed.

Lemma names_safe p fs :
  (forall f, In f fs -> file_syntax f <> None) ->
  Forall (fun nd => (d_file (snd nd) < length (p_files p))%nat) (p_names p) ->
  exists v, fold_res names_step (visit (offsets_of p) fs) (V p []) = Ok v.
Proof.
  intros Hsy Hn.
  destruct (fold_safe names_step (NS (offsets_of p)) (visit (offsets_of p) fs)) with (s := V p []) as [v [E _]].
  - intros done e rest s Hl. apply (NS_step _ fs _ _ rest); [|exact Hl].
    intros path i f Hin. apply visit_files_in in Hin. destruct Hin as [k [_ Hk]]. apply Hsy. eapply nth_error_In, Hk.
  - constructor; cbn; try reflexivity; [exact Hn| |].
    + intros i m Hi Hm. assert (i < length (p_messages p))%nat by (apply nth_error_Some; congruence). lia.
    + intros i m Hi Hm. assert (i < length (p_enums p))%nat by (apply nth_error_Some; congruence). lia.
  - exists v. exact E.
Qed.

(** ** Phase 2 *)

(** what the second phase reads and never changes *)
Record ready (p : pool) : Prop := {
  rd_names : forall n d, In (n, d) (p_names p) -> (d_file d < length (raws p))%nat /\
    match d_kind d with
    | DMessage i => (i < length (mids p))%nat
    | DEnum i => (i < length (eids p))%nat
    | _ => True
    end;
  rd_msgs : forall i id, nth_error (mids p) i = Some id ->
    exists f m, nth_error (raws p) (id_file id) = Some f /\ find_message_proto f (id_path id) = Some m;
  rd_enums : forall i id, nth_error (eids p) i = Some id ->
    exists f e, nth_error (raws p) (id_file id) = Some f /\ find_enum_proto f (id_path id) = Some e;
  rd_fnames : forall n i, assoc_s n (p_file_names p) = Some i -> (i < length (raws p))%nat
}.
Record steady (p p' : pool) : Prop := {
  sd_names : p_names p' = p_names p;
  sd_fnames : p_file_names p' = p_file_names p;
  sd_raws : raws p' = raws p;
  sd_mids : mids p' = mids p;
  sd_eids : eids p' = eids p
}.
Lemma steady_refl p : steady p p.
Proof. constructor; reflexivity. Qed.
Lemma steady_trans p q r : steady p q -> steady q r -> steady p r.
Proof. intros [A B C D E] [A' B' C' D' E']. constructor; congruence. Qed.
Lemma ready_steady p p' : ready p -> steady p p' -> ready p'.
Proof.
  intros [A B C D] [E1 E2 E3 E4 E5]. constructor; rewrite ?E1, ?E2, ?E3, ?E4, ?E5; assumption.
Qed.
Lemma raws_at p f raw : nth_error (raws p) f = Some raw -> exists fi, nth_error (p_files p) f = Some fi /\ fi_raw fi = raw.
Proof. intros H. apply nth_map_some in H. exact H. Qed.
Lemma raws_len p : length (raws p) = length (p_files p).
Proof. apply map_length. Qed.

Lemma field_number_safe message fd f v : ready (v_pool v) -> (message < length (mids (v_pool v)))%nat ->
  (fst f < length (raws (v_pool v)))%nat ->
  exists v', check_field_number message fd f v = Ok v' /\ v_pool v' = v_pool v.
Proof.
  intros R Hm Hf. unfold check_field_number.
  assert (exists v1, (if legal_number (fp_number fd) then Ok v else push_err [fst f] (at_spot (inside_spot f [3%Z]) ErrFieldNumber) v) = Ok v1 /\ v_pool v1 = v_pool v) as [v1 [E1 P1]].
  { destruct (legal_number _); [eauto|]. apply push_safe. intros g [<- |[]]. rewrite <- raws_len. exact Hf. }
  rewrite E1. cbn [rbind]. rewrite P1.
  destruct (nth_error (mids (v_pool v)) message) as [id|] eqn:Ei; [|apply nth_error_None in Ei; lia].
  destruct (rd_msgs _ R _ _ Ei) as [raw [mp [Er Ef]]]. apply nth_map_some in Ei. destruct Ei as [m [Em <-]].
  destruct (raws_at _ _ _ Er) as [fi [Efi <-]].
  unfold at_. rewrite Em. cbn [rbind]. rewrite Efi. cbn [rbind]. unfold need. rewrite Ef. cbn [rbind].
  assert (id_file (m_id m) < length (p_files (v_pool v)))%nat as Lm by (apply nth_error_Some; congruence).
  rewrite raws_len in Hf.
  assert (forall l, (forall g, In g l -> g = id_file (m_id m) \/ g = fst f) -> forall er w, v_pool w = v_pool v ->
            exists w', push_err l er w = Ok w' /\ v_pool w' = v_pool v) as Push.
  { intros l Hl er w Hw. destruct (push_safe l er w) as [w' [E' P']].
    - intros g Hg. rewrite Hw. destruct (Hl g Hg) as [-> | ->]; assumption.
    - exists w'. split; [exact E'|congruence]. }
  match goal with |- context [fold_res ?g (dp_reserved mp) v1] =>
    destruct (fold_safe_all g (fun w => v_pool w = v_pool v) (dp_reserved mp)) with (s := v1) as [v2 [E2 P2]] end.
  - intros a s _ Hs. cbn beta. destruct (in_range a _); [|eauto]. apply Push; [|exact Hs].
    intros g [<- |[<- |[]]]; auto.
  - exact P1.
  - rewrite E2. cbn [rbind].
    destruct (fp_extendee fd), (existsb _ (dp_ext_ranges mp)); try (exists v2; split; [reflexivity|exact P2]);
      apply Push; try exact P2.
    + intros g [<- |[]]; auto.
    + intros g [<- |[<- |[]]]; auto.
Qed.

Lemma enum_number_safe enum z f v : ready (v_pool v) -> (enum < length (eids (v_pool v)))%nat ->
  (fst f < length (raws (v_pool v)))%nat ->
  exists v', check_enum_number enum z f v = Ok v' /\ v_pool v' = v_pool v.
Proof.
  intros R Hm Hf. unfold check_enum_number.
  destruct (nth_error (eids (v_pool v)) enum) as [id|] eqn:Ei; [|apply nth_error_None in Ei; lia].
  destruct (rd_enums _ R _ _ Ei) as [raw [mp [Er Ef]]]. apply nth_map_some in Ei. destruct Ei as [m [Em <-]].
  destruct (raws_at _ _ _ Er) as [fi [Efi <-]].
  unfold at_. rewrite Em. cbn [rbind]. rewrite Efi. cbn [rbind]. unfold need. rewrite Ef. cbn [rbind].
  assert (id_file (e_id m) < length (p_files (v_pool v)))%nat as Lm by (apply nth_error_Some; congruence).
  rewrite raws_len in Hf.
  apply (fold_safe_all _ (fun w => v_pool w = v_pool v)); [|reflexivity].
  intros a s _ Hs. destruct (in_range_incl a z); [|eauto].
  destruct (push_safe [id_file (e_id m); fst f] (at_spot (inside_spot f [3%Z]) ErrEnumReserved) s) as [w' [E' P']].
  - rewrite Hs. intros g [<- |[<- |[]]]; assumption.
  - exists w'. split; [exact E'|congruence].
Qed.

(** what a lookup names is among the names *)
Definition rres_in (names : list (str * def)) (r : rfilter) (x : rres) : Prop :=
  match x with
  | RFound _ d => is_match r (d_kind d) = true /\ exists n, In (n, d) names
  | RInvalidType _ d => exists n, In (n, d) names
  | RNotImported _ f => exists n d, In (n, d) names /\ d_file d = f
  | _ => True
  end.
Lemma lookup_in deps names n r : rres_in names r (lookup_name deps names n r).
Proof.
  unfold lookup_name. destruct (assoc_s n names) as [d|] eqn:E; [|exact I].
  destruct (assoc_s_in _ _ _ E) as [k Hk].
  destruct (negb _); [cbn; eauto|]. destruct (is_match r (d_kind d)) eqn:M; cbn; eauto.
Qed.
Lemma loop_in deps names r rel parents : forall e, rres_in names r e -> rres_in names r (resolve_loop deps names r rel parents e).
Proof.
  induction parents as [|parent rest IH]; intros e He; cbn [resolve_loop]; [exact He|].
  destruct (length _ =? length _)%nat.
  - pose proof (lookup_in deps names (join_scope parent (first_part rel)) r) as L.
    destruct (lookup_name deps names (join_scope parent (first_part rel)) r); try exact L; apply IH; destruct e; assumption.
  - destruct (assoc_s _ names); [|apply IH, He]. destruct (is_parent _); [|apply IH, He].
    pose proof (lookup_in deps names (join_scope parent rel) r) as L.
    destruct (lookup_name deps names (join_scope parent rel) r); try exact L.
Qed.
Lemma resolve_in deps names scope name r : rres_in names r (resolve_name deps names scope name r).
Proof.
  unfold resolve_name. destruct name as [|c full].
  - destruct scope; [apply lookup_in|apply loop_in; exact I].
  - destruct (c =? dot); [apply lookup_in|]. destruct scope; [apply lookup_in|apply loop_in; exact I].
Qed.

Lemma ref_safe scope name f path tag r v raw : ready (v_pool v) ->
  nth_error (raws (v_pool v)) f = Some raw -> type_name_place raw path = Some tt ->
  exists o v', resolve_ref scope name f path tag r v = Ok (o, v') /\ v_pool v' = v_pool v /\
    (forall d, o = Some d -> is_match r (d_kind d) = true /\ exists n, In (n, d) (p_names (v_pool v))).
Proof.
  intros R Hf Hp. unfold resolve_ref. destruct (raws_at _ _ _ Hf) as [fi [Efi <-]].
  unfold at_. rewrite Efi. cbn [rbind].
  assert (f < length (p_files (v_pool v)))%nat as Lf by (apply nth_error_Some; congruence).
  pose proof (resolve_in (fi_trans fi) (p_names (v_pool v)) scope name r) as L.
  destruct (resolve_name _ _ _ _ _) as [n d|n d|n df|n s|]; cbn in L.
  - unfold need. rewrite Hp. cbn [rbind]. exists (Some d), v. split; [reflexivity|]. split; [reflexivity|].
    intros d' E. inversion E; subst. exact L.
  - destruct L as [n' L]. destruct (rd_names _ R _ _ L) as [Ld _]. rewrite raws_len in Ld.
    destruct (push_safe [f; d_file d] (at_spot (f, path ++ [tag]) (ErrInvalidType n)) v) as [v' [E' P']]; [intros g [<- |[<- |[]]]; assumption|].
    rewrite E'. cbn [rbind]. exists None, v'. split; [reflexivity|]. split; [exact P'|discriminate].
  - destruct L as [n' [d [L <-]]]. destruct (rd_names _ R _ _ L) as [Ld _]. rewrite raws_len in Ld.
    destruct (push_safe [f; d_file d] (at_spot (f, path ++ [tag]) (ErrNotFound n)) v) as [v' [E' P']]; [intros g [<- |[<- |[]]]; assumption|].
    rewrite E'. cbn [rbind]. exists None, v'. split; [reflexivity|]. split; [exact P'|discriminate].
  - destruct (push_safe [f] (at_spot (f, path ++ [tag]) (ErrShadowed n)) v) as [v' [E' P']]; [intros g [<- |[]]; assumption|].
    rewrite E'. cbn [rbind]. exists None, v'. split; [reflexivity|]. split; [exact P'|discriminate].
  - destruct (push_safe [f] (at_spot (f, path ++ [tag]) (ErrNotFound name)) v) as [v' [E' P']]; [intros g [<- |[]]; assumption|].
    rewrite E'. cbn [rbind]. exists None, v'. split; [reflexivity|]. split; [exact P'|discriminate].
Qed.
Lemma find_message_safe scope name f path tag v raw : ready (v_pool v) ->
  nth_error (raws (v_pool v)) f = Some raw -> type_name_place raw path = Some tt ->
  exists o v', find_message scope name f path tag v = Ok (o, v') /\ v_pool v' = v_pool v /\
    (forall i, o = Some i -> (i < length (mids (v_pool v)))%nat).
Proof.
  intros R Hf Hp. unfold find_message.
  destruct (ref_safe scope name f path tag FMessage v raw R Hf Hp) as [o [v' [E [P H]]]]. rewrite E. cbn [rbind].
  destruct o as [d|]; [|exists None, v'; split; [reflexivity|split; [exact P|discriminate]]].
  destruct (H d eq_refl) as [M [n Hn]]. pose proof (rd_names _ R _ _ Hn) as [_ Hk].
  destruct (d_kind d); try discriminate. eexists _, v'. split; [reflexivity|]. split; [exact P|].
  intros i0 Ei. inversion Ei; subst. exact Hk.
Qed.
Definition kind_in (p : pool) (ty : ptype) (name : str) (k : kind) : Prop :=
  match k with
  | KEnum e => (e < length (eids p))%nat
  | KBytes => ty = TBytes /\ name = []
  | _ => True
  end.
Lemma type_safe ty name scope f path v raw : ready (v_pool v) ->
  nth_error (raws (v_pool v)) f = Some raw -> type_name_place raw path = Some tt ->
  exists o v', resolve_type ty name scope f path v = Ok (o, v') /\ v_pool v' = v_pool v /\
    (forall k, o = Some k -> kind_in (v_pool v) ty name k).
Proof.
  intros R Hf Hp.
  assert (f < length (p_files (v_pool v)))%nat as Lf by (rewrite <- raws_len; apply nth_error_Some; congruence).
  destruct name as [|c name].
  - cbn [resolve_type].
    assert (exists o v', (let! v := push_err [f] (at_spot (f, path ++ [6%Z]) ErrMissingType) v in Ok (@None kind, v)) = Ok (o, v') /\ v_pool v' = v_pool v /\
              (forall k, o = Some k -> kind_in (v_pool v) ty [] k)) as Bad.
    { destruct (push_safe [f] (at_spot (f, path ++ [6%Z]) ErrMissingType) v) as [v' [E' P']]; [intros g [<- |[]]; assumption|].
      rewrite E'. exists None, v'. split; [reflexivity|]. split; [exact P'|discriminate]. }
    destruct ty; try exact Bad; (eexists _, v; split; [reflexivity|]; split; [reflexivity|]; intros k Ek;
      inversion Ek; subst; cbn; auto).
  - unfold resolve_type.
    destruct (ref_safe scope (c :: name) f path 6%Z FFieldType v raw R Hf Hp) as [o [v' [E [P H]]]]. rewrite E. cbn [rbind].
    destruct o as [d|]; [|exists None, v'; split; [reflexivity|split; [exact P|discriminate]]].
    destruct (H d eq_refl) as [M [n Hn]]. pose proof (rd_names _ R _ _ Hn) as [_ Hk].
    destruct (d_kind d); try discriminate; eexists _, v'; (split; [reflexivity|]; split; [exact P|]);
      intros k Ek; inversion Ek; subst.
    + destruct ty; exact I.
    + exact Hk.
Qed.

Section Resolve.
  Context (X : externs).

  (** defaults of bytes fields that can be read or refused *)
  Definition calm (fd : fproto) : Prop :=
    forall s, fp_type fd = TBytes -> fp_type_name fd = [] -> fp_default fd = Some s ->
    exists r, unescape_c (x_checked X) s = Ok r.

  Lemma default_safe k fd f v : ready (v_pool v) -> (fst f < length (raws (v_pool v)))%nat -> calm fd ->
    (forall k', k = Some k' -> kind_in (v_pool v) (fp_type fd) (fp_type_name fd) k') ->
    exists d v', default_of X k fd f v = Ok (d, v') /\ v_pool v' = v_pool v.
  Proof.
    intros R Hf Hc Hk. unfold default_of. destruct k as [k|]; [|eauto]. specialize (Hk k eq_refl).
    unfold parse_default. destruct (fp_default fd) as [s|] eqn:Ed; [|eauto].
    rewrite raws_len in Hf.
    assert (exists d v', (let! v' := push_err [fst f] (at_spot (inside_spot f [7%Z]) (ErrDefault s)) v in Ok (@None value, v')) = Ok (d, v') /\ v_pool v' = v_pool v) as Bad.
    { destruct (push_safe [fst f] (at_spot (inside_spot f [7%Z]) (ErrDefault s)) v) as [v' [E' P']]; [intros g [<- |[]]; assumption|].
      rewrite E'. exists None, v'. auto. }
    destruct k; try exact Bad; cbn [parse_simple rbind];
      try (match goal with |- context [option_map ?c ?o] => destruct (option_map c o); [eauto|exact Bad] end).
    - eauto.
    - destruct Hk as [Ht Hn]. destruct (Hc s Ht Hn Ed) as [r Er]. rewrite Er. cbn [rbind].
      destruct r; [cbn; eauto|exact Bad].
    - cbn in Hk. unfold at_.
      match goal with |- context [nth_error ?l ?i] => destruct (nth_error l i) as [en|] eqn:En end.
      2: { apply nth_error_None in En. unfold eids in Hk. rewrite map_length in Hk. lia. }
      cbn [rbind]. destruct (find _ _); [eauto|exact Bad].
  Qed.

  (** imports *)
  Lemma public_safe fuel : forall p deps index rank, ready p ->
    (forall a b, pub_dep (p_file_names p) (raws p) a b -> (rank b < rank a)%nat) ->
    (index < length (raws p))%nat -> (rank index < fuel)%nat ->
    exists t, resolve_public fuel p deps index = Ok t.
  Proof.
    induction fuel as [|fuel IH]; intros p deps index rank R Hr Hi Hf; [lia|]. cbn [resolve_public].
    destruct (nth_error (p_files p) index) as [fi|] eqn:Ef; [|apply nth_error_None in Ef; rewrite raws_len in Hi; lia].
    unfold at_. rewrite Ef. cbn [rbind].
    assert (forall ds0 ds i deps, fl_deps (fi_raw fi) = ds0 ++ ds -> length ds0 = i -> exists t,
      (fix go (i : nat) (ds : list str) (deps : list nat) : res (list nat) :=
         match ds with
         | [] => Ok deps
         | d :: r =>
             match assoc_s d (p_file_names p) with
             | Some di =>
                 if is_public (fi_raw fi) i then
                   let (deps', fresh) := set_insert di deps in
                   if negb fresh then
                     let! deps'' := resolve_public fuel p deps' di in go (S i) r deps''
                   else go (S i) r deps'
                 else go (S i) r deps
             | None => go (S i) r deps
             end
         end) i ds deps = Ok t) as G.
    { intros ds0 ds. revert ds0. induction ds as [|d ds IHd]; intros ds0 i deps' Eds Ei; [eauto|].
      assert (fl_deps (fi_raw fi) = (ds0 ++ [d]) ++ ds) as Eds' by (rewrite <- app_assoc; exact Eds).
      assert (length (ds0 ++ [d]) = S i) as Ei' by (rewrite app_length; cbn; lia).
      destruct (assoc_s d (p_file_names p)) as [di|] eqn:Ed; [|exact (IHd _ _ _ Eds' Ei')].
      destruct (is_public (fi_raw fi) i) eqn:Pi; [|exact (IHd _ _ _ Eds' Ei')].
      assert (pub_dep (p_file_names p) (raws p) index di) as PD.
      { exists (fi_raw fi), i, d. split; [unfold raws; rewrite nth_error_map, Ef; reflexivity|].
        split; [rewrite Eds, nth_error_app2, Ei by lia; rewrite <- Ei, Nat.sub_diag; reflexivity|]. auto. }
      destruct (set_insert di deps') as [dd fresh]. destruct (negb fresh); [|exact (IHd _ _ _ Eds' Ei')].
      destruct (IH p dd di rank R Hr (rd_fnames _ R _ _ Ed)) as [t Et]; [specialize (Hr _ _ PD); lia|].
      rewrite Et. cbn [rbind]. exact (IHd _ _ _ Eds' Ei'). }
    exact (G [] _ 0%nat deps eq_refl eq_refl).
  Qed.

  Context (fuel : nat) (rank : nat -> nat).
  Definition ranked (p : pool) : Prop :=
    (forall a b, pub_dep (p_file_names p) (raws p) a b -> (rank b < rank a)%nat) /\
    (forall i, (i < length (raws p))%nat -> (rank i < fuel)%nat).
  Lemma ranked_steady p p' : ranked p -> steady p p' -> ranked p'.
  Proof. intros [A B] [E1 E2 E3 E4 E5]. unfold ranked. rewrite E2, E3. auto. Qed.

  Lemma files_steady g i p : (forall x, fi_raw (g x) = fi_raw x) ->
    steady p (set_files (p_file_names p) (upd i g (p_files p)) p).
  Proof. intros H. constructor; try reflexivity. apply raws_upd. exact H. Qed.

  (** a change of the file table only *)
  Definition files_only (p p' : pool) : Prop :=
    steady p p' /\ p_messages p' = p_messages p /\ p_enums p' = p_enums p /\
    p_exts p' = p_exts p /\ p_services p' = p_services p.
  Lemma files_only_trans p q r : files_only p q -> files_only q r -> files_only p r.
  Proof.
    intros [A [B [C [D E]]]] [A' [B' [C' [D' E']]]].
    split; [eapply steady_trans; eassumption|]. repeat split; congruence.
  Qed.
  Lemma files_only_refl p : files_only p p.
  Proof. split; [apply steady_refl|auto]. Qed.
  Lemma deps_safe index ds : forall k trans v, ready (v_pool v) -> ranked (v_pool v) -> (index < length (raws (v_pool v)))%nat ->
    exists t v', resolve_deps fuel index k ds trans v = Ok (t, v') /\ files_only (v_pool v) (v_pool v').
  Proof.
    induction ds as [|d ds IH]; intros k trans v R K Hi; cbn [resolve_deps].
    - exists trans, v. split; [reflexivity|apply files_only_refl].
    - destruct (assoc_s d (p_file_names (v_pool v))) as [di|] eqn:Ed.
      + destruct (nth_error (p_files (v_pool v)) index) as [fi|] eqn:Ef;
          [|apply nth_error_None in Ef; rewrite raws_len in Hi; lia].
        unfold at_. rewrite Ef. cbn [rbind].
        match goal with |- context [on_pool ?g v] => set (v1 := on_pool g v) end.
        assert (steady (v_pool v) (v_pool v1)) as S1 by (apply files_steady; reflexivity).
        destruct (public_safe fuel (v_pool v1) (fst (set_insert di trans)) di rank) as [t Et].
        * eapply ready_steady; eassumption.
        * exact (proj1 (ranked_steady _ _ K S1)).
        * rewrite (sd_raws _ _ S1). exact (rd_fnames _ R _ _ Ed).
        * apply (proj2 K). exact (rd_fnames _ R _ _ Ed).
        * rewrite Et. cbn [rbind]. destruct (IH (Datatypes.S k) t v1) as [t' [v2 [E2 S2]]].
          -- eapply ready_steady; eassumption.
          -- eapply ranked_steady; eassumption.
          -- rewrite (sd_raws _ _ S1). exact Hi.
          -- exists t', v2. split; [exact E2|]. eapply files_only_trans; [|exact S2]. split; [exact S1|auto].
      + destruct (push_safe [index] (at_spot (index, [3; Z.of_nat k]%Z) (ErrFileNotFound d)) v) as [v1 [E1 P1]].
        { intros g [<- |[]]. rewrite <- raws_len. exact Hi. }
        rewrite E1. cbn [rbind]. destruct (IH (Datatypes.S k) trans v1) as [t' [v2 [E2 S2]]]; rewrite ?P1; try assumption.
        exists t', v2. split; [exact E2|]. rewrite P1 in S2. exact S2.
  Qed.
  Lemma import_safe n zs : forall v, exists v', fold_res (check_import_index n) zs v = Ok v' /\ v_pool v' = v_pool v.
  Proof.
    intros v. apply (fold_safe_all _ (fun w => v_pool w = v_pool v)); [|reflexivity].
    intros z w _ Hw. unfold check_import_index. destruct (_ && _); [eauto|].
    destruct (push_safe [] (nowhere ErrImportIndex) w) as [w' [E' P']]; [intros g []|]. exists w'. split; [exact E'|congruence].
  Qed.
  Lemma file_safe index f v : ready (v_pool v) -> ranked (v_pool v) -> (index < length (raws (v_pool v)))%nat ->
    exists v', resolve_file fuel index f v = Ok v' /\ files_only (v_pool v) (v_pool v').
  Proof.
    intros R K Hi. unfold resolve_file.
    destruct (deps_safe index (fl_deps f) 0%nat [index] v R K Hi) as [t [v1 [E1 S1]]]. rewrite E1. cbn [rbind].
    destruct (nth_error (p_files (v_pool v1)) index) as [fi|] eqn:Ef.
    2: { apply nth_error_None in Ef. rewrite <- raws_len, (sd_raws _ _ (proj1 S1)) in Ef. lia. }
    unfold at_. rewrite Ef. cbn [rbind].
    match goal with |- context [on_pool ?g v1] => set (v2 := on_pool g v1) end.
    assert (files_only (v_pool v1) (v_pool v2)) as S2 by (split; [apply files_steady; reflexivity|auto]).
    destruct (import_safe (length (fl_deps f)) (fl_public f) v2) as [v3 [E3 P3]]. rewrite E3. cbn [rbind].
    destruct (import_safe (length (fl_deps f)) (fl_weak f) v3) as [v4 [E4 P4]].
    exists v4. split; [exact E4|]. rewrite P4, P3. eapply files_only_trans; eassumption.
  Qed.

  (** the second phase *)
  Record RS (o : offsets) (p1 : pool) (done : list event) (v : vst) : Prop := {
    rs_steady : steady p1 (v_pool v);
    rs_exts : length (p_exts (v_pool v)) = of_ext (adv o done);
    rs_svcs : length (p_services (v_pool v)) = of_service (adv o done);
    rs_fields : forall i m, (of_msg o <= i)%nat -> nth_error (p_messages (v_pool v)) i = Some m ->
      length (m_fields m) = length (kids 0 i done);
    rs_methods : forall i s, (of_service o <= i)%nat -> nth_error (p_services (v_pool v)) i = Some s ->
      length (s_methods s) = length (kids 2 i done)
  }.
  Lemma RS_pool o p1 done v v' : RS o p1 done v -> v_pool v' = v_pool v -> RS o p1 done v'.
  Proof. intros [A B C D E] P. constructor; rewrite ?P; assumption. Qed.
  Lemma msg_steady i g p : (forall m, m_id (g m) = m_id m) -> steady p (set_messages (upd i g (p_messages p)) p).
  Proof. intros H. constructor; try reflexivity. unfold mids. cbn. apply map_upd. exact H. Qed.
  Lemma len_mids p : length (mids p) = length (p_messages p).
  Proof. apply map_length. Qed.
  Lemma len_eids p : length (eids p) = length (p_enums p).
  Proof. apply map_length. Qed.

  Definition evs_calm (evs : list event) : Prop :=
    forall e, In e evs -> match e with EvField _ _ _ _ _ fd | EvExt _ _ _ _ _ fd => calm fd | _ => True end.

  Lemma json_safe fd f path v raw fd' : nth_error (raws (v_pool v)) f = Some raw -> find_file_field raw path = Some fd' ->
    exists j, resolve_json fd f path v = Ok j.
  Proof.
    intros Hf Hp. unfold resolve_json. destruct (fp_json fd); [eauto|]. destruct (raws_at _ _ _ Hf) as [fi [E <-]].
    unfold at_. rewrite E. cbn [rbind]. unfold need. rewrite Hp. cbn [rbind]. eauto.
  Qed.

  Lemma field_safe o fs p1 done rest path full f message index fd v :
    let e := EvField path full f message index fd in
    ready p1 -> visit o fs = done ++ e :: rest -> scoped1 (adv o done) e ->
    (of_msg (adv o done) <= length (mids p1))%nat -> (of_file (adv o done) <= length (raws p1))%nat ->
    located (fun i => nth_error (raws p1) i) e -> calm fd ->
    RS o p1 done v -> exists v', resolve_field X path full f message index fd v = Ok v' /\ RS o p1 (done ++ [e]) v'.
  Proof.
    intros e R E Hs Lm Lf Hl Hc H. destruct Hs as [Hf Hm]. destruct Hl as [raw [Hraw [Hff Htp]]].
    pose proof (rs_steady _ _ _ _ H) as St. pose proof (ready_steady _ _ R St) as R0.
    destruct (kid_pos _ _ _ _ _ 0 message E eq_refl) as [Kp Ko]. cbn in Kp, Ko.
    unfold resolve_field.
    assert (message < length (mids (v_pool v)))%nat as Lmv by (rewrite (sd_mids _ _ St); lia).
    assert (f < length (raws (v_pool v)))%nat as Lfv by (rewrite (sd_raws _ _ St); lia).
    rewrite <- (sd_raws _ _ St) in Hraw.
    destruct (nth_error (p_messages (v_pool v)) message) as [m|] eqn:Em;
      [|apply nth_error_None in Em; rewrite len_mids in Lmv; lia].
    unfold at_ at 1. rewrite Em. cbn [rbind].
    rewrite (rs_fields _ _ _ _ H _ _ Ko Em), <- Kp, Nat.eqb_refl. cbn [assert rbind].
    destruct (raws_at _ _ _ Hraw) as [fi [Efi _]]. unfold at_ at 1. rewrite Efi. cbn [rbind].
    destruct (field_number_safe message fd (f, path) v R0 Lmv Lfv) as [v1 [E1 P1]]. rewrite E1. cbn [rbind].
    destruct (type_safe (fp_type fd) (fp_type_name fd) full f path v1 raw) as [k [v2 [E2 [P2 K2]]]]; rewrite ?P1; try assumption.
    rewrite E2. cbn [rbind]. rewrite P1 in K2, P2.
    destruct (json_safe fd f path v2 raw fd) as [j Ej]; rewrite ?P2; try assumption. rewrite Ej. cbn [rbind].
    destruct (default_safe k fd (f, path) v2) as [d [v3 [E3 P3]]]; rewrite ?P2; try assumption. rewrite E3. cbn [rbind].
    rewrite P2 in P3. rewrite P3. unfold at_. rewrite Em. cbn [rbind].
    match goal with |- context [rbind ?a _] =>
      assert (exists oo v4, a = Ok (oo, v4) /\ (v_pool v4 = v_pool v \/
        exists z, v_pool v4 = set_messages (upd message (m_push_oneof_field z index) (p_messages (v_pool v))) (v_pool v)))
        as [oo [v4 [E4 P4]]] end.
    { destruct (fp_oneof fd) as [z|]; [|exists None, v3; auto].
      destruct (_ || _).
      - destruct (push_safe [] (nowhere ErrOneofIndex) v3) as [w [Ew Pw]]; [intros g []|]. rewrite Ew. cbn [rbind].
        exists None, w. split; [reflexivity|]. left. congruence.
      - eexists _, _. split; [reflexivity|]. right. exists (Z.to_nat z). cbn. rewrite P3. reflexivity. }
    rewrite E4. cbn [rbind].
    match goal with |- context [on_message message ?g v4] => set (v5 := on_message message g v4) end.
    assert (RS o p1 (done ++ [e]) v5) as H5.
    { assert (exists h, (forall x, m_id (h x) = m_id x /\ m_fields (h x) = m_fields x ) /\
               p_messages (v_pool v4) = upd message h (p_messages (v_pool v)) /\
               v_pool v4 = set_messages (p_messages (v_pool v4)) (v_pool v)) as [h [Hh [P5 Q5]]].
      { destruct P4 as [P4|[z P4]].
        - exists (fun x => x). split; [auto|]. rewrite P4, upd_id by reflexivity. split; [reflexivity|].
          destruct (v_pool v). reflexivity.
        - exists (m_push_oneof_field z index). split; [auto|]. rewrite P4. auto. }
      constructor.
      - eapply steady_trans; [exact St|]. unfold v5, on_message. cbn [v_pool on_pool]. rewrite Q5, P5. cbn [set_messages p_messages].
        rewrite upd_upd. apply (msg_steady message _ (v_pool v)). intros x. cbn. apply Hh.
      - rewrite adv_snoc. cbn. rewrite Q5. cbn. apply H.
      - rewrite adv_snoc. cbn. rewrite Q5. cbn. apply H.
      - intros i m' Hi. cbn [v5 on_message on_pool v_pool set_messages p_messages].
        rewrite P5, upd_upd, nth_upd, kids_snoc, app_length. unfold owned. cbn [e owner].
        destruct (Nat.eqb_spec message i) as [<- |Hne].
        + rewrite Em. cbn [option_map]. intros Hx. apply Some_inj in Hx. subst m'. cbn.
          rewrite app_length, Nat.eqb_refl. rewrite (proj2 (Hh m)), (rs_fields _ _ _ _ H _ _ Ko Em). reflexivity.
        + intros Hx. destruct (Nat.eqb_spec i message); [congruence|]. cbn. rewrite (rs_fields _ _ _ _ H _ _ Hi Hx). lia.
      - intros i s Hi. cbn [v5 on_message on_pool v_pool set_messages p_services]. rewrite Q5. cbn [set_messages p_services].
        rewrite kids_snoc, app_length. unfold owned. cbn [e owner Nat.eqb andb length]. rewrite Nat.add_0_r.
        exact (rs_methods _ _ _ _ H _ _ Hi). }
    assert (forall er w, RS o p1 (done ++ [e]) w -> exists w', push_err [f; f] er w = Ok w' /\ RS o p1 (done ++ [e]) w') as Push.
    { intros er w Hw. destruct (push_safe [f; f] er w) as [w' [Ew Pw]].
      - intros g Hg. rewrite <- raws_len, (sd_raws _ _ (rs_steady _ _ _ _ Hw)). destruct Hg as [<- |[<- |[]]]; lia.
      - exists w'. split; [exact Ew|]. eapply RS_pool; eassumption. }
    match goal with |- context [rbind (match ?a with Some _ => push_err ?l ?er ?w | None => Ok ?w end) _] =>
      assert (exists v6, (match a with Some _ => push_err l er w | None => Ok w end) = Ok v6 /\ RS o p1 (done ++ [e]) v6) as [v6 [E6 H6]]
        by (destruct a; [apply Push; exact H5|eauto]) end.
    rewrite E6. cbn [rbind].
    match goal with |- context [rbind (match ?a with Some _ => push_err ?l ?er ?w | None => Ok ?w end) _] =>
      assert (exists v7, (match a with Some _ => push_err l er w | None => Ok w end) = Ok v7 /\ RS o p1 (done ++ [e]) v7) as [v7 [E7 H7]]
        by (destruct a; [apply Push; exact H6|eauto]) end.
    rewrite E7. cbn [rbind]. destruct (assoc_s j (m_jsons m)); [apply Push; exact H7|eauto].
  Qed.

  Lemma method_safe o fs p1 done rest path full f service index m v :
    let e := EvMethod path full f service index m in
    ready p1 -> visit o fs = done ++ e :: rest -> scoped1 (adv o done) e ->
    located (fun i => nth_error (raws p1) i) e ->
    RS o p1 done v -> exists v', resolve_method path full f service index m v = Ok v' /\ RS o p1 (done ++ [e]) v'.
  Proof.
    intros e R E Hs Hl H. destruct Hs as [Hf Hm]. destruct Hl as [raw [Hraw Htp]].
    pose proof (rs_steady _ _ _ _ H) as St. pose proof (ready_steady _ _ R St) as R0.
    destruct (kid_pos _ _ _ _ _ 2 service E eq_refl) as [Kp Ko]. cbn in Kp, Ko.
    rewrite <- (sd_raws _ _ St) in Hraw. unfold resolve_method.
    destruct (nth_error (p_services (v_pool v)) service) as [s|] eqn:Em;
      [|apply nth_error_None in Em; rewrite (rs_svcs _ _ _ _ H) in Em; lia].
    unfold at_. rewrite Em. cbn [rbind].
    rewrite (rs_methods _ _ _ _ H _ _ Ko Em), <- Kp, Nat.eqb_refl. cbn [assert rbind].
    destruct (find_message_safe full (mp_input m) f path 2%Z v raw R0 Hraw Htp) as [i [v1 [E1 [P1 _]]]]. rewrite E1. cbn [rbind].
    destruct (find_message_safe full (mp_output m) f path 3%Z v1 raw) as [j [v2 [E2 [P2 _]]]]; rewrite ?P1; try assumption.
    rewrite E2. cbn [rbind]. rewrite P1 in P2. eexists. split; [reflexivity|].
    constructor; rewrite ?adv_snoc; cbn [on_pool v_pool]; rewrite P2.
    - eapply steady_trans; [exact St|]. constructor; reflexivity.
    - cbn. apply H.
    - cbn. rewrite upd_length. apply H.
    - intros i0 m' Hi. cbn [set_services p_messages]. rewrite kids_snoc, app_length. unfold owned. cbn [e owner Nat.eqb andb length].
      rewrite Nat.add_0_r. exact (rs_fields _ _ _ _ H _ _ Hi).
    - intros i0 s' Hi. cbn [set_services p_services]. rewrite nth_upd, kids_snoc, app_length. unfold owned. cbn [e owner].
      destruct (Nat.eqb_spec service i0) as [<- |Hne].
      + rewrite Em. cbn [option_map]. intros Hx. apply Some_inj in Hx. subst s'. cbn.
        rewrite app_length, Nat.eqb_refl, (rs_methods _ _ _ _ H _ _ Ko Em). reflexivity.
      + intros Hx. destruct (Nat.eqb_spec i0 service); [congruence|]. cbn. rewrite (rs_methods _ _ _ _ H _ _ Hi Hx). lia.
  Qed.

  Lemma enum_value_safe o p1 done path full f enum index x v :
    let e := EvEnumValue path full f enum index x in
    ready p1 -> scoped1 (adv o done) e ->
    (of_enum (adv o done) <= length (eids p1))%nat -> (of_file (adv o done) <= length (raws p1))%nat ->
    RS o p1 done v -> exists v', resolve_enum_value X path full f enum index x v = Ok v' /\ RS o p1 (done ++ [e]) v'.
  Proof.
    intros e R Hs Le Lf H. destruct Hs as [Hf Hm].
    pose proof (rs_steady _ _ _ _ H) as St. pose proof (ready_steady _ _ R St) as R0.
    assert (enum < length (eids (v_pool v)))%nat as Lev by (rewrite (sd_eids _ _ St); lia).
    assert (f < length (raws (v_pool v)))%nat as Lfv by (rewrite (sd_raws _ _ St); lia).
    unfold resolve_enum_value.
    destruct (enum_number_safe enum (snd x) (f, path) v R0 Lev Lfv) as [v1 [E1 P1]]. rewrite E1. cbn [rbind]. rewrite P1.
    destruct (nth_error (p_enums (v_pool v)) enum) as [en|] eqn:Em; [|apply nth_error_None in Em; rewrite len_eids in Lev; lia].
    unfold at_. rewrite Em. cbn [rbind]. destruct (x_search X (e_numbers en) (snd x)) as [pos found].
    assert (forall er w, steady (v_pool v) (v_pool w) -> exists w', push_err [f; f] er w = Ok w' /\ v_pool w' = v_pool w) as Push.
    { intros er w Sw. apply push_safe. intros g Hg. rewrite <- raws_len, (sd_raws _ _ Sw). destruct Hg as [<- |[<- |[]]]; exact Lfv. }
    match goal with |- context [rbind (if ?a then push_err ?l ?er ?w else Ok ?w) _] =>
      assert (exists v2, (if a then push_err l er w else Ok w) = Ok v2 /\ v_pool v2 = v_pool v) as [v2 [E2 P2]] end.
    { destruct (_ && _); [|eauto]. destruct (Push (at_spot (f, path ++ [2%Z]) ErrDupEnumNumber) v1) as [w [Ew Pw]]; [rewrite P1; apply steady_refl|].
      exists w. split; [exact Ew|congruence]. }
    rewrite E2. cbn [rbind].
    match goal with |- context [on_pool ?g v2] => set (v3 := on_pool g v2) end.
    assert (steady (v_pool v) (v_pool v3)) as S3.
    { cbn. rewrite P2. constructor; try reflexivity. unfold eids. cbn. apply map_upd. reflexivity. }
    assert (RS o p1 (done ++ [e]) v3) as H3.
    { constructor; rewrite ?adv_snoc.
      - eapply steady_trans; [exact St|exact S3].
      - cbn. rewrite P2. apply H.
      - cbn. rewrite P2. apply H.
      - intros i m Hi. cbn [v3 on_pool v_pool set_enums p_messages]. rewrite P2, kids_snoc, app_length. unfold owned.
        cbn [e owner Nat.eqb andb length]. rewrite Nat.add_0_r. exact (rs_fields _ _ _ _ H _ _ Hi).
      - intros i m Hi. cbn [v3 on_pool v_pool set_enums p_services]. rewrite P2, kids_snoc, app_length. unfold owned.
        cbn [e owner Nat.eqb andb length]. rewrite Nat.add_0_r. exact (rs_methods _ _ _ _ H _ _ Hi). }
    destruct (assoc_s (fst x) (e_names en)); [|eauto].
    destruct (Push (at_spot (f, path ++ [1%Z]) (ErrDupName full)) v3 S3) as [w [Ew Pw]]. exists w. split; [exact Ew|]. eapply RS_pool; eassumption.
  Qed.

  Lemma ext_safe o p1 done path full f parent index fd v :
    let e := EvExt path full f parent index fd in
    ready p1 -> scoped1 (adv o done) e ->
    (of_file (adv o done) <= length (raws p1))%nat ->
    located (fun i => nth_error (raws p1) i) e -> calm fd ->
    RS o p1 done v -> exists v', resolve_ext X path full f parent index fd v = Ok v' /\ RS o p1 (done ++ [e]) v'.
  Proof.
    intros e R Hs Lf Hl Hc H. destruct Hs as [Hf [Hx Hp]]. destruct Hl as [raw [Hraw [Hff Htp]]].
    pose proof (rs_steady _ _ _ _ H) as St. pose proof (ready_steady _ _ R St) as R0.
    assert (f < length (raws (v_pool v)))%nat as Lfv by (rewrite (sd_raws _ _ St); lia).
    rewrite <- (sd_raws _ _ St) in Hraw. unfold resolve_ext.
    rewrite (rs_exts _ _ _ _ H), Hx, Nat.eqb_refl. cbn [assert rbind].
    match goal with |- context [find_message ?a ?b ?c ?d ?t v] =>
      destruct (find_message_safe a b c d t v raw R0 Hraw Htp) as [ex [v1 [E1 [P1 L1]]]] end.
    rewrite E1. cbn [rbind].
    match goal with |- context [rbind ?a _] =>
      assert (exists v2, a = Ok v2 /\ steady (v_pool v) (v_pool v2) /\ p_services (v_pool v2) = p_services (v_pool v) /\
        p_exts (v_pool v2) = p_exts (v_pool v) /\
        (forall i m', nth_error (p_messages (v_pool v2)) i = Some m' -> exists m, nth_error (p_messages (v_pool v)) i = Some m /\ length (m_fields m') = length (m_fields m)))
        as [v2 [E2 [S2 [Q2 [X2 F2]]]]] end.
    { destruct ex as [i|]; [|exists v1; rewrite P1; repeat split; eauto].
      specialize (L1 i eq_refl). rewrite P1.
      destruct (nth_error (p_messages (v_pool v)) i) as [m|] eqn:Em; [|apply nth_error_None in Em; rewrite len_mids in L1; lia].
      unfold at_. rewrite Em. cbn [rbind].
      set (w := on_message i (m_push_ext (of_ext (adv o done))) v1).
      assert (steady (v_pool v) (v_pool w)) as Sw by (cbn; rewrite P1; apply msg_steady; reflexivity).
      destruct (field_number_safe i fd (f, path) w) as [w' [Ew Pw]].
      - eapply ready_steady; eassumption.
      - rewrite (sd_mids _ _ Sw). exact L1.
      - rewrite (sd_raws _ _ Sw). exact Lfv.
      - exists w'. rewrite Pw. split; [exact Ew|]. split; [exact Sw|].
        split; [cbn; rewrite P1; reflexivity|]. split; [cbn; rewrite P1; reflexivity|].
        intros j m' Hj. cbn in Hj. rewrite P1, nth_upd in Hj. destruct (i =? j)%nat; [|eauto].
        destruct (nth_error (p_messages (v_pool v)) j) as [mj|]; [|discriminate]. cbn in Hj. inversion Hj; subst. eauto. }
    rewrite E2. cbn [rbind].
    pose proof (ready_steady _ _ R0 S2) as R2. rewrite <- (sd_raws _ _ S2) in Hraw, Lfv.
    destruct (raws_at _ _ _ Hraw) as [fi [Efi _]]. unfold at_. rewrite Efi. cbn [rbind].
    destruct (type_safe (fp_type fd) (fp_type_name fd) full f path v2 raw) as [k [v3 [E3 [P3 K3]]]]; try assumption.
    rewrite E3. cbn [rbind].
    destruct (json_safe fd f path v3 raw fd) as [j Ej]; rewrite ?P3; try assumption. rewrite Ej. cbn [rbind].
    destruct (default_safe k fd (f, path) v3) as [d [v4 [E4 P4]]]; rewrite ?P3; try assumption. rewrite E4. cbn [rbind].
    rewrite P3 in P4. eexists. split; [reflexivity|].
    constructor; rewrite ?adv_snoc; cbn [on_pool v_pool]; rewrite P4.
    - eapply steady_trans; [exact St|]. eapply steady_trans; [exact S2|]. constructor; reflexivity.
    - cbn. rewrite app_length, X2, (rs_exts _ _ _ _ H). cbn. lia.
    - cbn. rewrite Q2. apply H.
    - intros i m' Hi Hm. cbn [set_exts p_messages] in Hm. rewrite kids_snoc_head by reflexivity.
      destruct (F2 _ _ Hm) as [m [Hm1 ->]]. exact (rs_fields _ _ _ _ H _ _ Hi Hm1).
    - intros i m' Hi Hm. cbn [set_exts p_services] in Hm. rewrite Q2 in Hm. rewrite kids_snoc_head by reflexivity.
      exact (rs_methods _ _ _ _ H _ _ Hi Hm).
  Qed.

  Lemma RS_step o fs p1 done e rest v :
    ready p1 -> ranked p1 -> visit o fs = done ++ e :: rest ->
    (of_msg (adv o (visit o fs)) <= length (mids p1))%nat -> (of_enum (adv o (visit o fs)) <= length (eids p1))%nat ->
    (of_file (adv o (visit o fs)) <= length (raws p1))%nat ->
    located (fun i => nth_error (raws p1) i) e -> evs_calm (visit o fs) ->
    RS o p1 done v -> exists v', resolve_step X fuel e v = Ok v' /\ RS o p1 (done ++ [e]) v'.
  Proof.
    intros R K E Lm Le Lf Hl Hc H.
    assert (scoped o (done ++ e :: rest)) as Hs by (rewrite <- E; apply visit_scoped).
    destruct (adv1_scoped_app _ _ _ _ Hs) as [Hsc Hs1].
    assert (In e (visit o fs)) as Hin by (rewrite E; apply in_or_app; right; left; reflexivity).
    pose proof (off_le_adv (adv o done) (e :: rest)) as OL. rewrite <- adv_app, <- E in OL.
    assert ((of_msg (adv o done) <= length (mids p1))%nat /\ (of_enum (adv o done) <= length (eids p1))%nat /\
            (of_file (adv o done) <= length (raws p1))%nat) as [Lm' [Le' Lf']].
    { destruct OL as [? [? [? ?]]]. lia. }
    specialize (Hc _ Hin). pose proof (rs_steady _ _ _ _ H) as St.
    assert (forall v', v_pool v' = v_pool v -> adv1 (adv o done) e = adv o done \/ (of_ext (adv1 (adv o done) e) = of_ext (adv o done) /\
              of_service (adv1 (adv o done) e) = of_service (adv o done)) -> (forall i, owned 0 i e = false) -> (forall i, owned 2 i e = false) ->
              RS o p1 (done ++ [e]) v') as Skip.
    { intros v' P Ha O0 O2.
      assert (of_ext (adv1 (adv o done) e) = of_ext (adv o done) /\ of_service (adv1 (adv o done) e) = of_service (adv o done)) as [A1 A2]
        by (destruct Ha as [-> |Ha]; auto).
      constructor; rewrite ?adv_snoc, ?P, ?A1, ?A2; try apply H.
      - intros i m Hi Hm. rewrite kids_snoc, O0, app_nil_r. exact (rs_fields _ _ _ _ H _ _ Hi Hm).
      - intros i m Hi Hm. rewrite kids_snoc, O2, app_nil_r. exact (rs_methods _ _ _ _ H _ _ Hi Hm). }
    destruct e; cbn [resolve_step].
    - (* file *)
      destruct (file_safe index f v) as [v' [E' [S' [M' [N' [X' V']]]]]].
      + eapply ready_steady; eassumption.
      + eapply ranked_steady; eassumption.
      + rewrite (sd_raws _ _ St). cbn in Hl. apply nth_error_Some. congruence.
      + exists v'. split; [exact E'|]. constructor; rewrite ?adv_snoc; cbn [adv1 of_ext of_service].
        * eapply steady_trans; eassumption.
        * rewrite X'. apply H.
        * rewrite V'. apply H.
        * intros i m Hi Hm. rewrite kids_snoc_head by reflexivity. rewrite M' in Hm. exact (rs_fields _ _ _ _ H _ _ Hi Hm).
        * intros i m Hi Hm. rewrite kids_snoc_head by reflexivity. rewrite V' in Hm. exact (rs_methods _ _ _ _ H _ _ Hi Hm).
    - eexists. split; [reflexivity|]. apply Skip; cbn; auto.
    - eapply field_safe; eassumption.
    - eexists. split; [reflexivity|]. apply Skip; cbn; auto.
    - (* service *)
      destruct Hs1 as [Hf ->]. unfold resolve_service. rewrite (rs_svcs _ _ _ _ H), Nat.eqb_refl. cbn [assert rbind].
      eexists. split; [reflexivity|]. constructor; rewrite ?adv_snoc.
      + eapply steady_trans; [exact St|]. constructor; reflexivity.
      + cbn. apply H.
      + cbn. rewrite app_length, (rs_svcs _ _ _ _ H). cbn. lia.
      + intros i m Hi Hm. rewrite kids_snoc_head by reflexivity. exact (rs_fields _ _ _ _ H _ _ Hi Hm).
      + intros i m Hi. rewrite kids_snoc_head by reflexivity. cbn. intros Hm.
        destruct (Nat.lt_ge_cases i (length (p_services (v_pool v)))).
        * rewrite nth_error_app1 in Hm by assumption. exact (rs_methods _ _ _ _ H _ _ Hi Hm).
        * rewrite nth_error_app2 in Hm by assumption.
          destruct (i - length (p_services (v_pool v)))%nat as [|n] eqn:Ei; cbn in Hm; [|destruct n; discriminate].
          inversion Hm; subst. cbn. rewrite (kids_fresh o done 2 i Hsc); [reflexivity|].
          cbn. rewrite <- (rs_svcs _ _ _ _ H). assumption.
    - eapply method_safe; eassumption.
    - eexists. split; [reflexivity|]. apply Skip; cbn; auto.
    - eapply enum_value_safe; eassumption.
    - eapply ext_safe; eassumption.
  Qed.
End Resolve.

(** ** The whole call *)

Section Whole.
  Context (X : externs).

  Lemma inv_names_range p n d : Inv X p -> In (n, d) (p_names p) ->
    (d_file d < length (p_files p))%nat /\
    match d_kind d with
    | DMessage i => (i < length (p_messages p))%nat
    | DEnum i => (i < length (p_enums p))%nat
    | _ => True
    end.
  Proof.
    intros I H. pose proof (iv_sizes _ _ I) as Sz. pose proof (events_scoped p) as Sc.
    destruct (is_package (d_kind d)) eqn:K.
    - assert (d_kind d = DPackage) as Ek by (destruct (d_kind d); try discriminate; reflexivity).
      destruct (iv_pkg1 _ _ I _ _ H Ek) as [path [i [f [A [_ <-]]]]].
      pose proof (file_index_range _ _ _ _ _ Sc A) as R. rewrite <- Sz in R. cbn in R. rewrite Ek. split; [lia|exact Logic.I].
    - assert (In (n, d) (filter nonpkg (p_names p))) as Hf by (apply filter_In; split; [exact H|unfold nonpkg; cbn; rewrite K; reflexivity]).
      rewrite (iv_defs _ _ I) in Hf. apply in_rev in Hf. apply in_flat_map in Hf. destruct Hf as [e [He Hd]].
      pose proof (file_lt _ _ _ Sc He) as L. rewrite <- Sz in L. cbn [offsets_of of_file] in L.
      destruct e; cbn in Hd; try contradiction; destruct Hd as [Hd|[]]; inversion Hd; subst; cbn in L |- *; (split; [exact L|]); try exact Logic.I.
      + pose proof (msg_index_range _ _ _ _ _ _ _ _ Sc He) as R. rewrite <- Sz in R. cbn in R. lia.
      + pose proof (enum_index_range _ _ _ _ _ _ _ _ Sc He) as R. rewrite <- Sz in R. cbn in R. lia.
  Qed.

  Lemma names_ready p fs p1 : Inv X p -> unknown_files p fs ->
    fold_res names_step (visit (offsets_of p) fs) (V p []) = Ok (V p1 []) ->
    ready p1 /\ raws p1 = raws p ++ fs /\ p_file_names p1 = p_file_names p ++ flat_map ev_file (visit (offsets_of p) fs) /\
    RS (offsets_of p) p1 [] (V p1 []) /\
    length (mids p1) = of_msg (adv (offsets_of p) (visit (offsets_of p) fs)) /\
    length (eids p1) = of_enum (adv (offsets_of p) (visit (offsets_of p) fs)) /\
    length (raws p1) = of_file (adv (offsets_of p) (visit (offsets_of p) fs)) /\
    Forall (located (fun i => nth_error (raws p1) i)) (visit (offsets_of p) fs).
  Proof.
    intros I Hu H. pose proof (names_phase _ _ _ H) as HN.
    set (o := offsets_of p) in *. set (evs := visit o fs) in *.
    assert (frame fs o p p1) as F.
    { pose proof (visit_fresh o fs) as HF. rewrite Forall_forall in HF.
      pose proof (unknown_file_ev p o fs Hu) as HU. rewrite Forall_forall in HU.
      assert (sizes p o) as Ho by apply sizes_of.
      change p1 with (v_pool (V p1 [])). revert H. apply (fold_res_inv (fun s => frame fs o p (v_pool s))).
      - intros e s s' He Hs E. eapply names_frame; [exact Ho|apply HF; exact He|apply HU; exact He|exact Hs|exact E].
      - apply frame_init; [exact Ho|]. exact (ba_fnames _ (Inv_base _ _ I)). }
    pose proof (frame_later _ _ _ F) as L.
    pose proof HN as [NNp NFp NMp NEp NXp NSp].
    pose proof (visit_scoped o fs : scoped o evs) as Sc.
    assert (length (mids p1) = of_msg (adv o evs)) as Em by (unfold mids; rewrite map_length; exact (ni_nmsgs _ _ _ _ NMp)).
    assert (length (eids p1) = of_enum (adv o evs)) as Ee by (unfold eids; rewrite map_length; exact (ni_nenums _ _ _ _ NEp)).
    assert (length (raws p1) = of_file (adv o evs)) as Er by (unfold raws; rewrite map_length; exact (ni_nfiles _ _ _ _ _ NFp)).
    assert (raws p1 = raws p ++ fs) as Raws.
    { symmetry. apply list_eq_nth.
      - rewrite Er. unfold evs. rewrite visit_nfiles, app_length. unfold raws, o. rewrite map_length. reflexivity.
      - intros i a Ha. destruct (Nat.lt_ge_cases i (length (raws p))) as [Hi|Hi].
        + rewrite nth_app_l in Ha by exact Hi. exact (lt_raws _ _ _ L _ _ Ha).
        + rewrite nth_error_app2 in Ha by exact Hi. pose proof (visit_files_all fs o _ _ Ha) as Hin.
          destruct (ni_files _ _ _ _ _ NFp _ _ _ Hin) as [sy [_ Hf]]. unfold raws. rewrite nth_error_map.
          replace (of_file o + (i - length (raws p)))%nat with i in Hf by (unfold o, raws in *; cbn; rewrite map_length in *; lia).
          rewrite Hf. reflexivity. }
    assert (Forall (located (fun i => nth_error (raws p1) i)) evs) as Loc.
    { apply visit_located. intros k f Hk. rewrite Raws. unfold o. cbn [of_file offsets_of].
      rewrite <- (raws_len p), nth_error_app2 by lia. replace (length (raws p) + k - length (raws p))%nat with k by lia. exact Hk. }
    rewrite Forall_forall in Loc.
    assert (forall i, (length (p_messages p) <= i < length (p_messages p1))%nat ->
              exists path full f parent m, In (EvMessage path full f parent i m) evs /\
                nth_error (p_messages p1) i = Some (names_msg evs path full f parent i m)) as NewM.
    { intros i Hi. destruct (index_covered evs o i Sc) as [A _].
      destruct A as (path & full & f & parent & m & A); [rewrite <- Em, len_mids; exact Hi|].
      exists path, full, f, parent, m. split; [exact A|]. exact (proj1 (ni_msgs _ _ _ _ NMp _ _ _ _ _ _ A)). }
    assert (ready p1) as Rd.
    { constructor.
      - intros n d Hn. rewrite Em, Ee, Er.
        assert (forall nd, In nd (p_names p) -> (d_file (snd nd) < of_file (adv o evs))%nat /\
                  match d_kind (snd nd) with DMessage i => (i < of_msg (adv o evs))%nat | DEnum i => (i < of_enum (adv o evs))%nat | _ => True end) as Old.
        { intros [n' d'] Ho. destruct (inv_names_range _ _ _ I Ho) as [A B]. cbn [snd].
          destruct (off_le_adv o evs) as [O1 [O2 [O3 _]]]. cbn in O1, O2, O3. split; [lia|]. destruct (d_kind d'); try exact Logic.I; lia. }
        destruct (is_package (d_kind d)) eqn:K.
        + assert (d_kind d = DPackage) as Ek by (destruct (d_kind d); try discriminate; reflexivity).
          destruct (ni_pkg1 _ _ _ NNp _ _ Hn Ek) as [Ho|[path [i [f [A [_ <-]]]]]]; [exact (Old _ Ho)|].
          pose proof (file_index_range _ _ _ _ _ Sc A) as R. rewrite Ek. split; [lia|exact Logic.I].
        + assert (In (n, d) (filter nonpkg (p_names p1))) as Hf by (apply filter_In; split; [exact Hn|unfold nonpkg; cbn; rewrite K; reflexivity]).
          rewrite (ni_defs _ _ _ NNp) in Hf. apply in_app_or in Hf. destruct Hf as [Hf|Hf].
          2: { apply filter_In in Hf. exact (Old _ (proj1 Hf)). }
          apply in_rev in Hf. apply in_flat_map in Hf. destruct Hf as [e [He Hd]].
          pose proof (file_lt _ _ _ Sc He) as Lt.
          destruct e; cbn in Hd; try contradiction; destruct Hd as [Hd|[]]; inversion Hd; subst; cbn in Lt |- *; (split; [exact Lt|]); try exact Logic.I.
          * exact (proj2 (proj1 (msg_index_range _ _ _ _ _ _ _ _ Sc He))).
          * exact (proj2 (proj1 (enum_index_range _ _ _ _ _ _ _ _ Sc He))).
      - intros i id Hid. destruct (Nat.lt_ge_cases i (length (p_messages p))) as [Hi|Hi].
        + destruct (nth_error (p_messages p) i) as [m|] eqn:Hm; [|apply nth_error_None in Hm; lia].
          assert (nth_error (mids p) i = Some (m_id m)) as Hm' by (unfold mids; rewrite nth_error_map, Hm; reflexivity).
          pose proof (lt_mids _ _ _ L _ _ Hm') as Hq. rewrite Hid in Hq. inversion Hq; subst id.
          destruct (message_decl _ _ _ _ I Hm) as (f & dm & scope & n0 & A & B & _).
          exists f, dm. split; [apply (lt_raws _ _ _ L); exact A|]. exact (message_at_found _ _ _ _ B).
        + assert (i < length (p_messages p1))%nat as Hi2 by (rewrite <- len_mids; apply nth_error_Some; congruence).
          destruct (NewM i (conj Hi Hi2)) as (path & full & f & parent & m & A & B).
          unfold mids in Hid. rewrite nth_error_map, B in Hid. cbn in Hid. inversion Hid; subst. cbn.
          destruct (Loc _ A) as [f' [Q1 Q2]]. exists f', m. auto.
      - intros i id Hid. destruct (Nat.lt_ge_cases i (length (p_enums p))) as [Hi|Hi].
        + destruct (nth_error (p_enums p) i) as [m|] eqn:Hm; [|apply nth_error_None in Hm; lia].
          assert (nth_error (eids p) i = Some (e_id m)) as Hm' by (unfold eids; rewrite nth_error_map, Hm; reflexivity).
          pose proof (lt_eids _ _ _ L _ _ Hm') as Hq. rewrite Hid in Hq. inversion Hq; subst id.
          destruct (enum_decl _ _ _ _ I Hm) as (f & dm & scope & n0 & A & B & _).
          exists f, dm. split; [apply (lt_raws _ _ _ L); exact A|]. exact (enum_at_found _ _ _ _ B).
        + assert (i < length (p_enums p1))%nat as Hi2 by (rewrite <- len_eids; apply nth_error_Some; congruence).
          destruct (index_covered evs o i Sc) as [_ [A _]].
          destruct A as (path & full & f & parent & m & A); [rewrite <- Ee, len_eids; split; [exact Hi|exact Hi2]|].
          pose proof (proj1 (ni_enums _ _ _ _ NEp _ _ _ _ _ _ A)) as B.
          unfold eids in Hid. rewrite nth_error_map, B in Hid. cbn in Hid. inversion Hid; subst. cbn.
          destruct (Loc _ A) as [f' [Q1 Q2]]. exists f', m. auto.
      - intros n i Hn. apply assoc_s_In in Hn. rewrite (ni_fnames _ _ _ _ _ NFp) in Hn. apply in_app_or in Hn. destruct Hn as [Hn|Hn].
        + pose proof (ba_fnames _ (Inv_base _ _ I)) as Q. unfold fnames_ok in Q. rewrite Forall_forall in Q. specialize (Q _ Hn).
          cbn in Q. rewrite Raws, app_length, raws_len. lia.
        + apply in_flat_map in Hn. destruct Hn as [e [He Hd]]. destruct e; cbn in Hd; try contradiction.
          destruct Hd as [Hd|[]]. inversion Hd; subst. rewrite Er. exact (proj2 (file_index_range _ _ _ _ _ Sc He)). }
    split; [exact Rd|]. split; [exact Raws|]. split; [exact (ni_fnames _ _ _ _ _ NFp)|].
    split; [|rewrite Forall_forall; auto].
    constructor; cbn [v_pool].
    - apply steady_refl.
    - rewrite NXp. reflexivity.
    - rewrite NSp. reflexivity.
    - intros i m Hi Hm. cbn in Hi. assert (i < length (p_messages p1))%nat as Hi2 by (apply nth_error_Some; congruence).
      destruct (NewM i (conj Hi Hi2)) as (path & full & f & parent & m' & A & B). rewrite Hm in B. inversion B. reflexivity.
    - intros i s Hi Hs. cbn in Hi. rewrite NSp in Hs.
      assert (i < length (p_services p))%nat by (apply nth_error_Some; congruence). lia.
  Qed.

  Lemma build_safe fuel rank p fs :
    Inv X p -> unknown_files p fs ->
    (forall f, In f fs -> file_syntax f <> None) ->
    evs_calm X (visit (offsets_of p) fs) ->
    (forall a b, pub_dep (p_file_names p ++ flat_map ev_file (visit (offsets_of p) fs)) (raws p ++ fs) a b -> (rank b < rank a)%nat) ->
    (forall i, (i < length (raws p ++ fs))%nat -> (rank i < fuel)%nat) ->
    (forall q gs, exists r, x_options X q gs = Ok r) ->
    exists v, build_deduped X fuel p fs = Ok v.
  Proof.
    intros I Hu Hsy Hc Hr Hf Ho. unfold build_deduped.
    destruct (names_safe p fs Hsy) as [[p1 es] E1].
    { rewrite Forall_forall. intros [n d] Hn. exact (proj1 (inv_names_range _ _ _ I Hn)). }
    rewrite E1. cbn [rbind v_errs]. destruct es as [|e es]; [|eauto].
    destruct (names_ready _ _ _ I Hu E1) as (Rd & Raws & Fn & R0 & Lm & Le & Lr & Loc).
    destruct (fold_safe (resolve_step X fuel) (RS (offsets_of p) p1) (visit (offsets_of p) fs)) with (s := V p1 []) as [v2 [E2 _]].
    - intros done e rest s Hl Hs. eapply (RS_step X fuel rank); try eassumption.
      + split; [rewrite Fn, Raws; exact Hr|rewrite Raws; exact Hf].
      + lia.
      + lia.
      + lia.
      + rewrite Forall_forall in Loc. apply Loc. rewrite Hl. apply in_or_app. right. left. reflexivity.
    - exact R0.
    - rewrite E2. cbn [rbind]. destruct (v_errs v2); [|eauto].
      destruct (Ho (v_pool v2) fs) as [r Er]. rewrite Er. cbn [rbind]. destruct r; [eauto|].
      destruct (push_safe [] (nowhere ErrOptions) v2) as [v3 [E3 _]]; [intros g []|]. eauto.
  Qed.
End Whole.
