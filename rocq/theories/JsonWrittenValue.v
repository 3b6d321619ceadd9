(** google.protobuf.Value in C61. *)
From Coq Require Import String.
From Verif Require Import Base BaseProofs Wire Unknown Value Descr Fields Codec DescrOk DescrProofs FieldsProofs MergeProofs Float
  TextFormat TextLexProofs Json JsonSer JsonNumbers JsonWkt JsonTree JsonScalarBack JsonMask JsonMeaning JsonMeaningScalars JsonMeaningB64
  JsonWritten JsonWrittenScalars.
Open Scope list_scope.
Open Scope N_scope.

(** ** Induction on what is inside a value *)
Fixpoint inside (P : value -> Prop) (v : value) : Prop :=
  match v with
  | VMessage (DM _ fs) => fold_right and True (map (fun kv => match snd kv with SVal w => P w /\ inside P w | _ => True end) fs)
  | VList vs => fold_right and True (map (fun w => P w /\ inside P w) vs)
  | VMap kvs => fold_right and True (map (fun kv => P (snd kv) /\ inside P (snd kv)) kvs)
  | _ => True
  end.
Lemma all_and {A} (P : A -> Prop) l : fold_right and True (map P l) <-> Forall P l.
Proof.
  induction l as [|a l IH]; cbn [map fold_right]; [split; constructor|]. rewrite IH.
  split; [intros []; constructor; auto|inversion_clear 1; auto].
Qed.
Lemma value_inside P : (forall v, inside P v -> P v) -> forall v, P v.
Proof.
  intros H v. assert (G : P v /\ inside P v); [|apply G].
  induction v as [b|z|z|n|n|n|n|s|s|z|d fs IH|vs IH|kvs IH] using value_ind'; try (split; [apply H|]; exact I).
  - assert (G : inside P (VMessage (DM d fs))).
    { cbn [inside]. apply all_and. eapply Forall_impl; [|exact IH]. intros [n s] Hs. cbn [snd] in *. destruct s; exact Hs || exact I. }
    split; [now apply H|exact G].
  - assert (G : inside P (VList vs)) by (cbn [inside]; apply all_and; exact IH). split; [now apply H|exact G].
  - assert (G : inside P (VMap kvs)) by (cbn [inside]; apply (all_and (fun kv => P (snd kv) /\ inside P (snd kv))); exact IH). split; [now apply H|exact G].
Qed.
Lemma inside_slot P d fs n w : inside P (VMessage (DM d fs)) -> In (n, SVal w) fs -> P w /\ inside P w.
Proof.
  cbn [inside]. intros H Hin. apply (all_and (fun kv => match snd kv with SVal w => P w /\ inside P w | _ => True end)) in H.
  rewrite Forall_forall in H. exact (H _ Hin).
Qed.
Lemma inside_list P vs : inside P (VList vs) -> Forall (fun w => P w /\ inside P w) vs.
Proof. cbn [inside]. apply all_and. Qed.
Lemma inside_map P kvs : inside P (VMap kvs) -> Forall (fun kv => P (snd kv) /\ inside P (snd kv)) kvs.
Proof. cbn [inside]. apply (all_and (fun kv => P (snd kv) /\ inside P (snd kv))). Qed.

(** ** Typed messages *)
Lemma set_in x n v : bt_sorted (dm_fields x) -> is_set x n v <-> In (n, SVal v) (dm_fields x).
Proof.
  intros Hs. unfold is_set. split; [apply bt_get_In|]. intros H. now apply bt_In_get.
Qed.
Lemma set_ok t x n v : ok_msg t x = true -> is_set x n v -> exists f, find_desc t (dm_desc x) n = Some f /\ ok_field t f v = true.
Proof.
  intros H Hs. apply ok_msg_iff in H. pose proof (mo_slots _ _ H _ _ Hs) as O. unfold ok_slot in O. cbn [fst snd] in O.
  destruct (find_desc t (dm_desc x) n) as [f|]; [eauto|discriminate].
Qed.


(** ** Reading what is in a typed message *)
Lemma typed_struct y kvs : dm_desc y = 3%nat -> msg_ok wkt_tables y -> typed_is y 1 (VMap kvs) <-> kvs = struct_map y.
Proof.
  intros Ed Hm. unfold typed_is, get_field_by_number, get_field_value, fs_get. rewrite Ed.
  destruct (get_field wkt_tables 3 1) as [f|] eqn:Ef; [|vm_compute in Ef; discriminate]. cbn [option_map].
  pose proof (get_field_number _ _ _ _ (proj1 wkt_wf) Ef) as En. rewrite En.
  destruct (struct_get y Ed Hm) as [Eg|[Eg E0]]; rewrite Eg.
  - split; [intros [= <-]; reflexivity|intros ->; reflexivity].
  - rewrite E0. assert (D : fd_default_value wkt_tables f = VMap []) by (vm_compute in Ef; injection Ef as <-; vm_compute; reflexivity).
    rewrite D. split; [intros [= <-]; reflexivity|intros ->; reflexivity].
Qed.
Lemma typed_list y vs : dm_desc y = 6%nat -> msg_ok wkt_tables y -> typed_is y 1 (VList vs) <-> vs = list_vals y.
Proof.
  intros Ed Hm. unfold typed_is, get_field_by_number, get_field_value, fs_get. rewrite Ed.
  destruct (get_field wkt_tables 6 1) as [f|] eqn:Ef; [|vm_compute in Ef; discriminate]. cbn [option_map].
  pose proof (get_field_number _ _ _ _ (proj1 wkt_wf) Ef) as En. rewrite En.
  destruct (listv_get y Ed Hm) as [Eg|[Eg E0]]; rewrite Eg.
  - split; [intros [= <-]; reflexivity|intros ->; reflexivity].
  - rewrite E0. assert (D : fd_default_value wkt_tables f = VList []) by (vm_compute in Ef; injection Ef as <-; vm_compute; reflexivity).
    rewrite D. split; [intros [= <-]; reflexivity|intros ->; reflexivity].
Qed.
Lemma elem_value v : ok_elem wkt_tables v (KMessage 5) = true <-> exists x, v = VMessage x /\ dm_desc x = 5%nat /\ ok_msg wkt_tables x = true.
Proof.
  split.
  - destruct v; try discriminate. rewrite ok_elem_msg. cbn [kind_msg]. intros H. apply andb_true_iff in H. destruct H as [H1 H2]. apply Nat.eqb_eq in H1. eauto.
  - intros (x & -> & Hd & Ho). rewrite ok_elem_msg. cbn [kind_msg]. rewrite Hd, Ho. reflexivity.
Qed.
Lemma elem_desc v d : ok_elem wkt_tables v (KMessage d) = true -> exists x, v = VMessage x /\ dm_desc x = d /\ ok_msg wkt_tables x = true.
Proof.
  destruct v; try discriminate. rewrite ok_elem_msg. cbn [kind_msg]. intros H. apply andb_true_iff in H. destruct H as [H1 H2]. apply Nat.eqb_eq in H1. eauto.
Qed.

(** ** Values *)

(** the one member that is set *)
Inductive value_case (x : dynmsg) : Prop :=
| vc_unset : (forall n v, ~ is_set x n v) -> value_case x
| vc_set n v pre post : dm_fields x = pre ++ (n, SVal v) :: post -> Forall valueless pre ->
    (forall n' v', is_set x n' v' -> n' = n /\ v' = v) -> is_set x n v ->
    (n = 1 \/ n = 2 /\ (exists b, v = VF64 b) \/ n = 3 /\ (exists s, v = VString s) \/ n = 4 /\ (exists b, v = VBool b) \/
     n = 5 /\ (exists y, v = VMessage y /\ dm_desc y = 3%nat /\ ok_msg wkt_tables y = true) \/
     n = 6 /\ (exists y, v = VMessage y /\ dm_desc y = 6%nat /\ ok_msg wkt_tables y = true)) -> value_case x.
Lemma value_cases x : dm_desc x = 5%nat -> ok_msg wkt_tables x = true -> value_case x.
Proof.
  intros Ed Ho. pose proof (proj1 (ok_msg_iff _ _) Ho) as Hm. pose proof (mo_sorted _ _ Hm) as Hs.
  destruct (existsb (fun kv => match snd kv with SVal _ => true | _ => false end) (dm_fields x)) eqn:Ex.
  - destruct (first_value _ Ex) as (pre & n & v & post & El & Hp).
    assert (S : is_set x n v) by (apply set_in; [exact Hs|rewrite El; apply in_or_app; right; now left]).
    destruct (set_ok _ _ _ _ Ho S) as (f & Hf & Hv). rewrite Ed in Hf.
    destruct (value_fields n f Hf) as (Hn & Hpr & Hon & Hl & Hmap & Hk).
    eapply vc_set; [exact El|exact Hp| |exact S|].
    + intros n' v' S'. destruct (N.eq_dec n' n) as [->|Hne]; [split; [reflexivity|unfold is_set in *; congruence]|]. exfalso.
      destruct (set_ok _ _ _ _ Ho S') as (f' & Hf' & _). rewrite Ed in Hf'. destruct (value_fields n' f' Hf') as (_ & _ & _ & _ & _ & Hk').
      assert (Gf : get_field wkt_tables (dm_desc x) n = Some f) by (rewrite Ed; now apply value_field).
      refine (mo_oneof _ _ Hm _ _ _ _ n' v' S Gf Hon _ Hne S').
      cbn [In]. intuition.
    + unfold ok_field in Hv. rewrite Hl, Hmap in Hv.
      destruct Hk as [[-> Hk]|[[-> Hk]|[[-> Hk]|[[-> Hk]|[[-> Hk]|[-> Hk]]]]]].
      * left. reflexivity.
      * right; left. split; [reflexivity|]. rewrite Hk in Hv. destruct v as [b|z|z|q|q|q|q|s|s|z|mm|vs|kvs]; try discriminate Hv; eauto. destruct mm; discriminate Hv.
      * right; right; left. split; [reflexivity|]. rewrite Hk in Hv. destruct v as [b|z|z|q|q|q|q|s|s|z|mm|vs|kvs]; try discriminate Hv; eauto. destruct mm; discriminate Hv.
      * right; right; right; left. split; [reflexivity|]. rewrite Hk in Hv. destruct v as [b|z|z|q|q|q|q|s|s|z|mm|vs|kvs]; try discriminate Hv; eauto. destruct mm; discriminate Hv.
      * right; right; right; right; left. split; [reflexivity|]. rewrite Hk in Hv. apply elem_desc. destruct v; try discriminate Hv; exact Hv.
      * right; right; right; right; right. split; [reflexivity|]. rewrite Hk in Hv. apply elem_desc. destruct v; try discriminate Hv; exact Hv.
  - apply vc_unset. intros n v S. apply set_in in S; [|exact Hs]. pose proof (no_value _ Ex) as Hn. rewrite Forall_forall in Hn. exact (Hn _ S).
Qed.

Lemma jall_iff {A} (l : list (jres A)) r : jall l = JOk r <-> Forall2 (fun a b => a = JOk b) l r.
Proof.
  split; [|apply jall_ok]. revert r. induction l as [|a l IH]; intros r; cbn [jall].
  - intros [= <-]. constructor.
  - destruct a; cbn [jbind]; try discriminate. destruct (jall l); cbn [jbind]; try discriminate. intros [= <-]. constructor; auto.
Qed.
Lemma jmap_iff {A B} (r : jres A) (f : A -> B) b : (let* a := r in JOk (f a)) = JOk b <-> exists a, r = JOk a /\ b = f a.
Proof.
  destruct r; cbn [jbind]; (split; [|intros (x & Hx & ->)]); try discriminate; [intros [= <-]; eauto|congruence].
Qed.
Lemma Forall2_mapl {A B C} (P : B -> C -> Prop) (f : A -> B) l r : Forall2 P (map f l) r <-> Forall2 (fun a c => P (f a) c) l r.
Proof.
  split.
  - revert r. induction l as [|a l IH]; intros r H; inversion H; subst; constructor; auto.
  - induction 1; constructor; auto.
Qed.
Definition value_ok (v : value) : Prop := ok_elem wkt_tables v (KMessage 5) = true.
Definition wv_iff (v : value) : Prop := forall x, v = VMessage x -> value_ok v -> forall j, ser_wvalue v = JOk j <-> value_written x j.
Lemma list_iff vs : Forall wv_iff vs -> Forall value_ok vs -> forall js, jall (map ser_wvalue vs) = JOk js <-> values_of_list vs js.
Proof.
  intros H. induction H as [|v vs Hv H IH]; intros Ho js.
  - cbn. split; [intros [= <-]; constructor|inversion 1; reflexivity].
  - inversion_clear Ho as [|? ? Ov Ovs]. pose proof (proj1 (elem_value v) Ov) as (x & -> & _). rewrite jall_iff. cbn [map]. split.
    + intros F. inversion F as [|? j ? js' F1 F2]; subst. constructor; [now apply Hv|]. apply IH; [exact Ovs|]. now apply jall_iff.
    + intros F. inversion F as [|? ? j js' F1 F2]; subst. constructor; [now apply (Hv x eq_refl Ov)|]. apply jall_iff, IH; assumption.
Qed.
Definition string_key (k : mapkey) : Prop := exists s, k = MKString s.
Lemma keys_iff kvs : Forall (fun kv => wv_iff (snd kv)) kvs -> Forall (fun kv => string_key (fst kv) /\ value_ok (snd kv)) kvs ->
  forall ms, jall (map (fun kv => let* j := ser_wvalue (snd kv) in JOk (ser_key (fst kv), j)) kvs) = JOk ms <-> values_of_keys kvs ms.
Proof.
  intros H. induction H as [|[k v] vs Hv H IH]; intros Ho ms.
  - cbn. split; [intros [= <-]; constructor|inversion 1; reflexivity].
  - inversion_clear Ho as [|? ? [[s Ek] Ov] Ovs]. cbn [fst snd] in *. subst k. pose proof (proj1 (elem_value v) Ov) as (y & -> & _). rewrite jall_iff. cbn [map fst snd ser_key]. split.
    + intros F. inversion F as [|? j ? js' F1 F2]; subst. apply jmap_iff in F1. destruct F1 as (j' & F1 & ->). constructor; [now apply Hv|]. apply IH; [exact Ovs|]. now apply jall_iff.
    + intros F. inversion F as [|? ? ? j js' F1 F2]; subst. constructor; [apply jmap_iff; exists j; split; [now apply (Hv y eq_refl Ov)|reflexivity]|]. apply jall_iff, IH; assumption.
Qed.
Lemma list_vals_ok y : dm_desc y = 6%nat -> msg_ok wkt_tables y -> Forall value_ok (list_vals y).
Proof.
  intros Ed Hm. destruct (list_vals y) as [|v0 l0] eqn:El; [constructor|]. rewrite <- El.
  assert (Hin : In (1, SVal (VList (list_vals y))) (dm_fields y)) by (apply list_vals_in; auto; congruence).
  destruct (list_slots y Ed Hm _ _ Hin) as (_ & l & [= E1] & Hl). rewrite E1. apply Forall_forall. exact Hl.
Qed.
Lemma struct_map_ok y : dm_desc y = 3%nat -> msg_ok wkt_tables y -> Forall (fun kv => string_key (fst kv) /\ value_ok (snd kv)) (struct_map y).
Proof.
  intros Ed Hm. destruct (struct_map y) as [|v0 l0] eqn:El; [constructor|]. rewrite <- El.
  assert (Hin : In (1, SVal (VMap (struct_map y))) (dm_fields y)) by (apply struct_map_in; auto; congruence).
  destruct (struct_slots y Ed Hm _ _ Hin) as (_ & l & [= E1] & _ & Hl). rewrite E1. apply Forall_forall. intros [k w] H.
  destruct (Hl k w H) as ((s & -> & _) & H2). split; [now exists s|exact H2].
Qed.
Lemma list_vals_inside P y : dm_desc y = 6%nat -> msg_ok wkt_tables y -> inside P (VMessage y) -> Forall P (list_vals y).
Proof.
  intros Ed Hm Hi. destruct (list_vals y) as [|v0 l0] eqn:El; [constructor|]. rewrite <- El.
  assert (Hin : In (1, SVal (VList (list_vals y))) (dm_fields y)) by (apply list_vals_in; auto; congruence).
  destruct y as [d fs]. destruct (inside_slot _ _ _ _ _ Hi Hin) as [_ H]. apply inside_list in H. eapply Forall_impl; [|exact H]. intros a [Ha _]. exact Ha.
Qed.
Lemma struct_map_inside P y : dm_desc y = 3%nat -> msg_ok wkt_tables y -> inside P (VMessage y) -> Forall (fun kv => P (snd kv)) (struct_map y).
Proof.
  intros Ed Hm Hi. destruct (struct_map y) as [|v0 l0] eqn:El; [constructor|]. rewrite <- El.
  assert (Hin : In (1, SVal (VMap (struct_map y))) (dm_fields y)) by (apply struct_map_in; auto; congruence).
  destruct y as [d fs]. destruct (inside_slot _ _ _ _ _ Hi Hin) as [_ H]. apply inside_map in H. eapply Forall_impl; [|exact H]. intros a [Ha _]. exact Ha.
Qed.
Ltac other_set U := match goal with S : is_set _ ?n ?v |- _ => let H := fresh in pose proof (U n v S) as H; destruct H as [H _]; discriminate H end.
Lemma wvalue_iff v : wv_iff v.
Proof.
  apply (value_inside wv_iff). clear v. intros v Hin x -> Hok j. pose proof (proj1 (elem_value _) Hok) as (x0 & [= <-] & Ed & Ho).
  destruct (value_cases x Ed Ho) as [U|n v pre post El Hp U S C].
  - assert (Es : ser_wvalue (VMessage x) = JOk JNull).
    { destruct x as [d fs]. rewrite <- (app_nil_r fs). rewrite ser_skip; [reflexivity|]. apply Forall_forall. intros [n [|v|us]] Hi; cbn; auto.
      apply (U n v). apply set_in; [|exact Hi]. apply (mo_sorted _ _ (proj1 (ok_msg_iff _ _) Ho)). }
    rewrite Es. split.
    + intros [= <-]. apply vw_unset. intros n v _. apply U.
    + intros H. destruct H; try reflexivity; exfalso; eapply U; eassumption.
  - assert (Es : ser_wvalue (VMessage x) = ser_wvalue (VMessage (DM (dm_desc x) ((n, SVal v) :: post)))).
    { destruct x as [d fs]. cbn [dm_fields dm_desc] in *. rewrite El. now apply ser_skip. }
    assert (Nu : forall m w, (forall n v, In n [1; 2; 3; 4; 5; 6] -> ~ is_set x n v) -> n = m -> In m [1; 2; 3; 4; 5; 6] -> v = w -> False).
    { intros m w H -> Hm _. exact (H _ _ Hm S). }
    assert (Hv : inside wv_iff (VMessage x) -> wv_iff v /\ inside wv_iff v).
    { destruct x as [d fs]. intros H. eapply inside_slot; [exact H|]. apply (set_in (DM d fs) n v); [|exact S]. apply (mo_sorted _ _ (proj1 (ok_msg_iff _ _) Ho)). }
    rewrite Es. clear Es El.
    destruct C as [->|[(-> & b & ->)|[(-> & s & ->)|[(-> & b & ->)|[(-> & y & -> & Ey & Hy)|(-> & y & -> & Ey & Hy)]]]]].
    + cbn. split; [intros [= <-]; eapply vw_null, S|]. intros H. destruct H; try reflexivity; other_set U.
    + assert (Eq : ser_wvalue (VMessage (DM (dm_desc x) ((2, SVal (VF64 b)) :: post))) = if f64_finite b then JOk (JF64 b) else JErr XNonFinite) by reflexivity.
      rewrite Eq. assert (F : f64_finite b = true <-> b mod 2 ^ 63 < 2047 * 2 ^ 52) by (apply N.ltb_lt). split.
      * destruct (f64_finite b) eqn:Ef; [|discriminate]. intros [= <-]. apply vw_number; [exact S|now apply F].
      * intros H. destruct H; try other_set U.
        -- exfalso. eapply (H 2); [cbn; tauto|exact S].
        -- match goal with H : is_set _ 2 (VF64 ?c) |- _ => destruct (U _ _ H) as [_ E]; injection E as -> end. now rewrite (proj2 F).
    + cbn. split; [intros [= <-]; eapply vw_string, S|]. intros H. destruct H; try other_set U.
      * exfalso. eapply (H 3); [cbn; tauto|exact S].
      * match goal with H : is_set _ 3 (VString ?c) |- _ => destruct (U _ _ H) as [_ E]; injection E as -> end. reflexivity.
    + cbn. split; [intros [= <-]; eapply vw_bool, S|]. intros H. destruct H; try other_set U.
      * exfalso. eapply (H 4); [cbn; tauto|exact S].
      * match goal with H : is_set _ 4 (VBool ?c) |- _ => destruct (U _ _ H) as [_ E]; injection E as -> end. reflexivity.
    + apply ok_msg_iff in Hy. rewrite (struct_ser _ y post Ey Hy), jmap_iff.
      pose proof (keys_iff (struct_map y) (struct_map_inside _ y Ey Hy (proj2 (Hv Hin))) (struct_map_ok y Ey Hy)) as K. split.
      * intros (ms & H1 & ->). eapply vw_struct; [exact S|apply typed_struct; auto|now apply K].
      * intros H. destruct H; try other_set U.
        -- exfalso. eapply (H 5); [cbn; tauto|exact S].
        -- match goal with H : is_set _ 5 (VMessage ?c) |- _ => destruct (U _ _ H) as [_ E]; injection E as -> end.
           match goal with H : typed_is _ _ _ |- _ => apply typed_struct in H; auto; subst end. exists ms. split; [now apply K|reflexivity].
    + apply ok_msg_iff in Hy. rewrite (list_ser _ y post Ey Hy), jmap_iff.
      pose proof (list_iff (list_vals y) (list_vals_inside _ y Ey Hy (proj2 (Hv Hin))) (list_vals_ok y Ey Hy)) as K. split.
      * intros (ms & H1 & ->). eapply vw_list; [exact S|apply typed_list; auto|now apply K].
      * intros H. destruct H; try other_set U.
        -- exfalso. eapply (H 6); [cbn; tauto|exact S].
        -- match goal with H : is_set _ 6 (VMessage ?c) |- _ => destruct (U _ _ H) as [_ E]; injection E as -> end.
           match goal with H : typed_is _ _ _ |- _ => apply typed_list in H; auto; subst end. exists js. split; [now apply K|reflexivity].
Qed.
