(** google.protobuf.Value, Struct and ListValue: the JSON tree written for one is
    read back as the same typed message. *)
From Coq Require Import String Permutation.
From Verif Require Import Base BaseProofs Wire WireProofs Unknown UnknownProofs Value Descr Fields
  Codec DescrOk DescrProofs FieldsProofs LenProofs EncBytes MergeProofs RoundSpec RoundProofs RoundMain RoundSame
  ItemRound CompatSpec Compat AgreeProofs Float TextFormat Json JsonSer JsonDe JsonWkt JsonSafe Bulk.
Open Scope list_scope.
Open Scope N_scope.

(** Every Value inside says what it is; a null is NULL_VALUE; numbers are finite
    and survive being written and read. *)
Fixpoint tree_okb (E : json_externs) (v : value) : bool :=
  match v with
  | VMessage (DM _ fs) =>
      existsb (fun kv => match snd kv with SVal _ => true | _ => false end) fs &&
      forallb (fun kv =>
        match snd kv with
        | SVal (VEnum z) => (z =? 0)%Z
        | SVal (VF64 b) => f64_finite b && (jx_carry64 E b =? b)
        | SVal (VMessage (DM _ fs')) =>
            forallb (fun kv' =>
              match snd kv' with
              | SVal (VMap kvs) => forallb (fun e => tree_okb E (snd e)) kvs
              | SVal (VList vs) => forallb (tree_okb E) vs
              | _ => true
              end) fs'
        | _ => true
        end) fs
  | _ => true
  end.
(** the values of a Struct, those of a ListValue *)
Definition trees_okb (E : json_externs) (x : dynmsg) : bool :=
  forallb (fun kv' =>
    match snd kv' with
    | SVal (VMap kvs) => forallb (fun e => tree_okb E (snd e)) kvs
    | SVal (VList vs) => forallb (tree_okb E) vs
    | _ => true
    end) (dm_fields x).

(** ** Sorting *)
Section Sort.
  Context {A B : Type} (g : A -> B).
  Definition on_snd (kv : str * A) : str * B := (fst kv, g (snd kv)).
  Lemma insert_on k v l : sorted_insert k (g v) (map on_snd l) = map on_snd (sorted_insert k v l).
  Proof.
    induction l as [|[k' v'] l IH]; [reflexivity|]. cbn [map sorted_insert on_snd fst snd].
    destruct (bytes_cmp k k'); [reflexivity|reflexivity|]. cbn [map on_snd fst snd]. f_equal. exact IH.
  Qed.
  Lemma sort_on l : sort_members (map on_snd l) = map on_snd (sort_members l).
  Proof.
    unfold sort_members. change (@nil (str * B)) with (map on_snd []). generalize (@nil (str * A)) as acc.
    induction l as [|[k v] l IH]; intros acc; [reflexivity|]. cbn [map fold_left fst snd on_snd]. rewrite insert_on. apply IH.
  Qed.
End Sort.
Lemma insert_perm {A} k (v : A) l : ~ In k (map fst l) -> Permutation (sorted_insert k v l) ((k, v) :: l).
Proof.
  induction l as [|[k' v'] l IH]; intros H; [reflexivity|]. cbn [sorted_insert]. destruct (bytes_cmp k k') eqn:E.
  - apply bytes_cmp_eq in E. subst. exfalso. apply H. left. reflexivity.
  - reflexivity.
  - rewrite IH; [apply perm_swap|]. intros Hin. apply H. right. exact Hin.
Qed.
Lemma sort_perm {A} (l : list (str * A)) : NoDup (map fst l) -> Permutation (sort_members l) l.
Proof.
  unfold sort_members. intros H.
  assert (G : forall acc, NoDup (map fst l) -> (forall k, In k (map fst l) -> ~ In k (map fst acc)) ->
    Permutation (fold_left (fun acc kv => sorted_insert (fst kv) (snd kv) acc) l acc) (acc ++ l)).
  { clear H. induction l as [|[k v] l IH]; intros acc Hn Hd; [rewrite app_nil_r; reflexivity|]. cbn [fold_left fst snd map] in *.
    inversion_clear Hn as [|? ? Hni Hn']. pose proof (insert_perm k v acc (Hd k (or_introl eq_refl))) as P.
    rewrite IH; [|exact Hn'|].
    - rewrite P. cbn. rewrite <- Permutation_middle. reflexivity.
    - intros k' Hin Hin2. pose proof (Permutation_map fst P) as P2. apply (Permutation_in _ P2) in Hin2. cbn in Hin2.
      destruct Hin2 as [<-|Hin2]; [contradiction|]. apply (Hd k'); [right; exact Hin|exact Hin2]. }
  apply (G [] H). intros k _ [].
Qed.

Lemma mk_eqb_str a b : mk_eqb (MKString a) (MKString b) = bytes_eqb a b.
Proof. reflexivity. Qed.
Lemma map_get_none_keys {A} k (l : list (mapkey * A)) : map_get k l = None <-> ~ In k (map fst l).
Proof.
  induction l as [|[k' v] l IH]; cbn; [split; auto|]. destruct (mk_eqb k k') eqn:E.
  - apply mk_eqb_eq in E. subst. split; [discriminate|]. intros H. exfalso. apply H. left. reflexivity.
  - rewrite IH. split.
    + intros H [->|Hin]; [|contradiction]. destruct k; cbn in E; rewrite ?Z.eqb_refl, ?N.eqb_refl, ?bytes_eqb_refl in E; try discriminate; destruct b; discriminate.
    + intros H Hin. apply H. right. exact Hin.
Qed.
Lemma map_get_in {A} k (v : A) l : map_get k l = Some v -> In (k, v) l.
Proof.
  induction l as [|[k' v'] l IH]; cbn; [discriminate|]. destruct (mk_eqb k k') eqn:E.
  - intros [= <-]. apply mk_eqb_eq in E. subst. left. reflexivity.
  - intros H. right. apply IH, H.
Qed.

Lemma jall_ok {A} (l : list (jres A)) (r : list A) : Forall2 (fun a b => a = JOk b) l r -> jall l = JOk r.
Proof. induction 1 as [|a b l r -> F IH]; [reflexivity|]. cbn [jall]. cbn [jbind]. rewrite IH. reflexivity. Qed.

(** ** What the typed messages are made of *)
Lemma value_field n f : find_desc wkt_tables 5 n = Some f -> get_field wkt_tables 5 n = Some f.
Proof.
  intros H. unfold find_desc in H. destruct (get_field wkt_tables 5 n) as [f0|] eqn:E; [exact H|].
  destruct (get_ext_inv _ _ _ _ (proj1 wkt_wf) H) as (_ & Hin & _).
  destruct (msg_exts_inv _ _ _ (proj1 wkt_wf) Hin) as (m & x & e & E1 & E2 & E3 & _). destruct x; discriminate E3.
Qed.
Lemma value_fields n f : find_desc wkt_tables 5 n = Some f ->
  fd_number f = n /\ fd_presence f = true /\ fd_oneof f = Some [1; 2; 3; 4; 5; 6] /\ fd_is_list f = false /\ fd_is_map f = false /\
  (n = 1 /\ fd_kind f = KEnum 0 \/ n = 2 /\ fd_kind f = KDouble \/ n = 3 /\ fd_kind f = KString \/ n = 4 /\ fd_kind f = KBool \/
   n = 5 /\ fd_kind f = KMessage 3 \/ n = 6 /\ fd_kind f = KMessage 6).
Proof.
  intros H. unfold find_desc in H. destruct (get_field wkt_tables 5 n) as [f0|] eqn:E.
  - injection H as ->. pose proof (get_field_number _ _ _ _ (proj1 wkt_wf) E) as En. split; [exact En|]. subst n.
    apply (msg_fields_get _ _ _ (proj1 wkt_wf)) in E. vm_compute in E.
    repeat (destruct E as [<-|E]; [cbn; repeat split; tauto|]). destruct E.
  - destruct (get_ext_inv _ _ _ _ (proj1 wkt_wf) H) as (_ & Hin & _).
    destruct (msg_exts_inv _ _ _ (proj1 wkt_wf) Hin) as (m & x & e & E1 & E2 & E3 & _). destruct x; discriminate E3.
Qed.
Lemma struct_fields n f : find_desc wkt_tables 3 n = Some f ->
  n = 1 /\ fd_number f = 1 /\ fd_presence f = false /\ fd_is_list f = false /\ fd_is_map f = true /\ fd_kind f = KMessage 4.
Proof.
  intros H. unfold find_desc in H. destruct (get_field wkt_tables 3 n) as [f0|] eqn:E.
  - injection H as ->. pose proof (get_field_number _ _ _ _ (proj1 wkt_wf) E) as En. rewrite <- En in *.
    apply (msg_fields_get _ _ _ (proj1 wkt_wf)) in E. vm_compute in E.
    repeat (destruct E as [<-|E]; [cbn; repeat split; tauto|]). destruct E.
  - destruct (get_ext_inv _ _ _ _ (proj1 wkt_wf) H) as (_ & Hin & _).
    destruct (msg_exts_inv _ _ _ (proj1 wkt_wf) Hin) as (m & x & e & E1 & E2 & E3 & _). destruct x; discriminate E3.
Qed.
Lemma listv_fields n f : find_desc wkt_tables 6 n = Some f ->
  n = 1 /\ fd_number f = 1 /\ fd_presence f = false /\ fd_is_list f = true /\ fd_is_map f = false /\ fd_kind f = KMessage 5.
Proof.
  intros H. unfold find_desc in H. destruct (get_field wkt_tables 6 n) as [f0|] eqn:E.
  - injection H as ->. pose proof (get_field_number _ _ _ _ (proj1 wkt_wf) E) as En. rewrite <- En in *.
    apply (msg_fields_get _ _ _ (proj1 wkt_wf)) in E. vm_compute in E.
    repeat (destruct E as [<-|E]; [cbn; repeat split; tauto|]). destruct E.
  - destruct (get_ext_inv _ _ _ _ (proj1 wkt_wf) H) as (_ & Hin & _).
    destruct (msg_exts_inv _ _ _ (proj1 wkt_wf) Hin) as (m & x & e & E1 & E2 & E3 & _). destruct x; discriminate E3.
Qed.
Lemma entry_fields : exists kf vf, entry_key wkt_tables 4 = Some kf /\ entry_value wkt_tables 4 = Some vf /\
  fd_kind kf = KString /\ fd_kind vf = KMessage 5 /\ fd_presence vf = true.
Proof. vm_compute. eexists. eexists. repeat split. Qed.

(** the map of a Struct, the list of a ListValue *)
Definition struct_map (x : dynmsg) : list (mapkey * value) :=
  match fs_get_value (dm_fields x) 1 with Some (VMap l) => l | _ => [] end.
Definition list_vals (x : dynmsg) : list value :=
  match fs_get_value (dm_fields x) 1 with Some (VList l) => l | _ => [] end.

(** the slots of a message other than its values *)
Definition valueless {V} (kv : N * slot V) : Prop := match snd kv with SVal _ => False | _ => True end.

Lemma ser_skip d pre fs : Forall valueless pre -> ser_wvalue (VMessage (DM d (pre ++ fs))) = ser_wvalue (VMessage (DM d fs)).
Proof.
  induction 1 as [|[n s] pre Hs F IH]; [reflexivity|]. rewrite <- IH. cbn in Hs. cbn [app ser_wvalue].
  destruct s as [|v|us]; [reflexivity|contradiction|reflexivity].
Qed.
Lemma first_value (fs : fieldset) : existsb (fun kv => match snd kv with SVal _ => true | _ => false end) fs = true ->
  exists pre n v post, fs = pre ++ (n, SVal v) :: post /\ Forall valueless pre.
Proof.
  induction fs as [|[n s] fs IH]; cbn; [discriminate|]. destruct s as [|v|us].
  - cbn. intros H. destruct (IH H) as (pre & n' & v' & post & -> & F). exists ((n, Taken) :: pre), n', v', post. split; [reflexivity|]. constructor; [exact Logic.I|exact F].
  - intros _. exists [], n, v, fs. split; [reflexivity|constructor].
  - cbn. intros H. destruct (IH H) as (pre & n' & v' & post & -> & F). exists ((n, SUnk us) :: pre), n', v', post. split; [reflexivity|]. constructor; [exact Logic.I|exact F].
Qed.

Lemma ser_struct_found d i pre post' l post : Forall valueless pre ->
  ser_wvalue (VMessage (DM d ((5, SVal (VMessage (DM i (pre ++ (1, SVal (VMap l)) :: post')))) :: post))) =
  let* ms := jall (map (fun kv => let* j := ser_wvalue (snd kv) in JOk (ser_key (fst kv), j)) l) in JOk (JObj (sort_members ms)).
Proof.
  induction 1 as [|[n s] pre Hs F IH]; [reflexivity|]. rewrite <- IH. cbn in Hs. cbn [app ser_wvalue].
  destruct s as [|v|us]; [|contradiction|]; destruct n as [|[p|p|]]; reflexivity.
Qed.
Lemma ser_struct_none d i fs post : Forall valueless fs ->
  ser_wvalue (VMessage (DM d ((5, SVal (VMessage (DM i fs))) :: post))) = JOk (JObj []).
Proof.
  induction 1 as [|[n s] pre Hs F IH]; [reflexivity|]. rewrite <- IH. cbn in Hs. cbn [app ser_wvalue].
  destruct s as [|v|us]; [|contradiction|]; destruct n as [|[p|p|]]; reflexivity.
Qed.
Lemma ser_list_found d i pre post' l post : Forall valueless pre ->
  ser_wvalue (VMessage (DM d ((6, SVal (VMessage (DM i (pre ++ (1, SVal (VList l)) :: post')))) :: post))) =
  let* js := jall (map ser_wvalue l) in JOk (JArr js).
Proof.
  induction 1 as [|[n s] pre Hs F IH]; [reflexivity|]. rewrite <- IH. cbn in Hs. cbn [app ser_wvalue].
  destruct s as [|v|us]; [|contradiction|]; destruct n as [|[p|p|]]; reflexivity.
Qed.
Lemma ser_list_none d i fs post : Forall valueless fs ->
  ser_wvalue (VMessage (DM d ((6, SVal (VMessage (DM i fs))) :: post))) = JOk (JArr []).
Proof.
  induction 1 as [|[n s] pre Hs F IH]; [reflexivity|]. rewrite <- IH. cbn in Hs. cbn [app ser_wvalue].
  destruct s as [|v|us]; [|contradiction|]; destruct n as [|[p|p|]]; reflexivity.
Qed.
Lemma no_value (fs : fieldset) : existsb (fun kv => match snd kv with SVal _ => true | _ => false end) fs = false -> Forall valueless fs.
Proof.
  induction fs as [|[n s] fs IH]; intros H; constructor.
  - cbn in H. apply orb_false_iff in H. destruct s; cbn; auto. destruct H as [H _]. discriminate.
  - apply IH. cbn in H. now apply orb_false_iff in H.
Qed.
Lemma slot_1 (fs : fieldset) n v pre post : bt_sorted fs -> fs = pre ++ (n, SVal v) :: post -> fs_get_value fs n = Some v.
Proof.
  intros Hs ->. unfold fs_get_value. rewrite (bt_In_get n (SVal v) _ Hs); [reflexivity|]. apply in_or_app. right. left. reflexivity.
Qed.
Lemma valueless_none (fs : fieldset) n : Forall valueless fs -> fs_get_value fs n = None.
Proof.
  intros F. unfold fs_get_value. destruct (bt_get n fs) as [s|] eqn:E; [|reflexivity]. apply bt_get_In in E. rewrite Forall_forall in F. specialize (F _ E).
  destruct s; cbn in F; [reflexivity|contradiction|reflexivity].
Qed.
Lemma struct_slots x : dm_desc x = 3%nat -> msg_ok wkt_tables x ->
  forall n v, In (n, SVal v) (dm_fields x) -> n = 1 /\ exists l, v = VMap l /\ keys_nodupb l = true /\
    forall k w, In (k, w) l -> (exists s, k = MKString s /\ str_ok s) /\ ok_elem wkt_tables w (KMessage 5) = true.
Proof.
  intros Ed Hm n v Hin. pose proof (mo_slots _ _ Hm _ _ (bt_In_get _ _ _ (mo_sorted _ _ Hm) Hin)) as Ho.
  unfold ok_slot in Ho. cbn [fst snd] in Ho. rewrite Ed in Ho. destruct (find_desc wkt_tables 3 n) as [f|] eqn:Ef; [|discriminate Ho].
  destruct (struct_fields n f Ef) as (-> & _ & _ & El & Em & Ek). split; [reflexivity|].
  destruct entry_fields as (kf & vf & E1 & E2 & E3 & E4 & E5).
  destruct v as [| | | | | | | | | |m|l|l]; try (rewrite ok_field_plain in Ho by reflexivity; rewrite Em in Ho; rewrite andb_false_r in Ho; discriminate Ho).
  - cbn in Ho. rewrite El in Ho. discriminate Ho.
  - exists l. split; [reflexivity|]. cbn [ok_field] in Ho. rewrite Ek, Em in Ho. cbn [kind_msg] in Ho. rewrite E1, E2, E3, E4 in Ho.
    apply andb_true_iff in Ho. destruct Ho as [H1 H2]. split; [exact H1|]. rewrite forallb_forall in H2. intros k w Hkw. specialize (H2 _ Hkw).
    cbn [fst snd] in H2. apply andb_true_iff in H2. split; [|tauto]. destruct H2 as [H2 _]. destruct k; try discriminate H2. exists s. split; [reflexivity|].
    cbn in H2. unfold str_ok. apply andb_true_iff in H2. destruct H2 as [A B]. split; [|exact B]. apply bytes_okb_ok, A.
Qed.
Lemma list_slots x : dm_desc x = 6%nat -> msg_ok wkt_tables x ->
  forall n v, In (n, SVal v) (dm_fields x) -> n = 1 /\ exists l, v = VList l /\ forall w, In w l -> ok_elem wkt_tables w (KMessage 5) = true.
Proof.
  intros Ed Hm n v Hin. pose proof (mo_slots _ _ Hm _ _ (bt_In_get _ _ _ (mo_sorted _ _ Hm) Hin)) as Ho.
  unfold ok_slot in Ho. cbn [fst snd] in Ho. rewrite Ed in Ho. destruct (find_desc wkt_tables 6 n) as [f|] eqn:Ef; [|discriminate Ho].
  destruct (listv_fields n f Ef) as (-> & _ & _ & El & Em & Ek). split; [reflexivity|].
  destruct v as [| | | | | | | | | |m|l|l]; try (rewrite ok_field_plain in Ho by reflexivity; rewrite El in Ho; discriminate Ho).
  - exists l. split; [reflexivity|]. cbn [ok_field] in Ho. apply andb_true_iff in Ho. destruct Ho as [_ H2]. rewrite forallb_forall in H2. rewrite Ek in H2. exact H2.
  - cbn [ok_field] in Ho. rewrite Em in Ho. destruct (kind_msg (fd_kind f)); discriminate Ho.
Qed.
Lemma struct_ser d x post : dm_desc x = 3%nat -> msg_ok wkt_tables x ->
  ser_wvalue (VMessage (DM d ((5, SVal (VMessage x)) :: post))) =
  let* ms := jall (map (fun kv => let* j := ser_wvalue (snd kv) in JOk (ser_key (fst kv), j)) (struct_map x)) in
  JOk (JObj (sort_members ms)).
Proof.
  intros Ed Hm. destruct x as [i fs]. cbn [dm_desc] in Ed. subst i. unfold struct_map. cbn [dm_fields].
  destruct (existsb (fun kv => match snd kv with SVal _ => true | _ => false end) fs) eqn:Ex.
  - destruct (first_value fs Ex) as (pre & n & v & post' & E & F).
    assert (Hin : In (n, SVal v) (dm_fields (DM 3 fs))) by (cbn [dm_fields]; rewrite E; apply in_or_app; right; left; reflexivity).
    destruct (struct_slots (DM 3 fs) eq_refl Hm _ _ Hin) as (-> & l & -> & _).
    rewrite (slot_1 fs 1 (VMap l) pre post' (mo_sorted _ _ Hm) E). rewrite E. now apply ser_struct_found.
  - apply no_value in Ex. rewrite (valueless_none fs 1 Ex). now apply ser_struct_none.
Qed.
Lemma list_ser d x post : dm_desc x = 6%nat -> msg_ok wkt_tables x ->
  ser_wvalue (VMessage (DM d ((6, SVal (VMessage x)) :: post))) = let* js := jall (map ser_wvalue (list_vals x)) in JOk (JArr js).
Proof.
  intros Ed Hm. destruct x as [i fs]. cbn [dm_desc] in Ed. subst i. unfold list_vals. cbn [dm_fields].
  destruct (existsb (fun kv => match snd kv with SVal _ => true | _ => false end) fs) eqn:Ex.
  - destruct (first_value fs Ex) as (pre & n & v & post' & E & F).
    assert (Hin : In (n, SVal v) (dm_fields (DM 6 fs))) by (cbn [dm_fields]; rewrite E; apply in_or_app; right; left; reflexivity).
    destruct (list_slots (DM 6 fs) eq_refl Hm _ _ Hin) as (-> & l & -> & _).
    rewrite (slot_1 fs 1 (VList l) pre post' (mo_sorted _ _ Hm) E). rewrite E. now apply ser_list_found.
  - apply no_value in Ex. rewrite (valueless_none fs 1 Ex). now apply ser_list_none.
Qed.

(** ** Agreement *)
Lemma map_def_has t f l : fd_is_list f = false -> fd_is_map f = true -> fd_presence f = false ->
  fd_has t f (VMap l) = match l with [] => false | _ => true end.
Proof. intros El Em Ep. unfold fd_has, is_default_for, fd_default_value. rewrite El, Em, Ep. destruct l; reflexivity. Qed.
Lemma list_def_has t f l : fd_is_list f = true -> fd_presence f = false ->
  fd_has t f (VList l) = match l with [] => false | _ => true end.
Proof. intros El Ep. unfold fd_has, is_default_for, fd_default_value. rewrite El, Ep. destruct l; reflexivity. Qed.
Lemma struct_get x : dm_desc x = 3%nat -> msg_ok wkt_tables x ->
  fs_get_value (dm_fields x) 1 = Some (VMap (struct_map x)) \/ fs_get_value (dm_fields x) 1 = None /\ struct_map x = [].
Proof.
  intros Ed Hm. unfold struct_map. destruct (fs_get_value (dm_fields x) 1) as [v|] eqn:E; [|right; split; reflexivity]. left.
  unfold fs_get_value in E. destruct (bt_get 1 (dm_fields x)) as [[|v'|]|] eqn:Eb; try discriminate E. injection E as ->.
  destruct (struct_slots x Ed Hm _ _ (bt_get_In _ _ _ Eb)) as (_ & l & -> & _). reflexivity.
Qed.
Lemma listv_get x : dm_desc x = 6%nat -> msg_ok wkt_tables x ->
  fs_get_value (dm_fields x) 1 = Some (VList (list_vals x)) \/ fs_get_value (dm_fields x) 1 = None /\ list_vals x = [].
Proof.
  intros Ed Hm. unfold list_vals. destruct (fs_get_value (dm_fields x) 1) as [v|] eqn:E; [|right; split; reflexivity]. left.
  unfold fs_get_value in E. destruct (bt_get 1 (dm_fields x)) as [[|v'|]|] eqn:Eb; try discriminate E. injection E as ->.
  destruct (list_slots x Ed Hm _ _ (bt_get_In _ _ _ Eb)) as (_ & l & -> & _). reflexivity.
Qed.
Lemma agree_struct x kvs : dm_desc x = 3%nat -> msg_ok wkt_tables x -> agree wkt_tables (VMap (struct_map x)) (VMap kvs) ->
  agree_msg wkt_tables x (DM 3 [(1, SVal (VMap kvs))]).
Proof.
  intros Ed Hm A. apply agree_message; [exact Ed| | |]; intros n f Hf; rewrite Ed in Hf; destruct (struct_fields _ _ Hf) as (-> & En & Ep & El & Em & Ek);
    unfold has_field, fs_has, get_field_value, fs_get; cbn [dm_fields]; rewrite En; change (fs_get_value [(1, SVal (VMap kvs))] 1) with (Some (VMap kvs));
    assert (Elen : length (struct_map x) = length kvs) by (inversion A; [discriminate|assumption]);
    destruct (struct_get x Ed Hm) as [Eg|[Eg E0]]; rewrite Eg; rewrite ?E0 in *.
  - rewrite !map_def_has by assumption. destruct (struct_map x), kvs; try discriminate Elen; reflexivity.
  - rewrite !map_def_has by assumption. destruct kvs; [reflexivity|discriminate Elen].
  - intros _. exact A.
  - discriminate.
  - rewrite map_def_has by assumption. destruct (struct_map x); [|discriminate]. intros _. destruct kvs; [reflexivity|discriminate Elen].
  - intros _. unfold fd_default_value. rewrite El, Em. destruct kvs; [reflexivity|discriminate Elen].
Qed.
Lemma agree_listv x vs : dm_desc x = 6%nat -> msg_ok wkt_tables x -> Forall2 (agree wkt_tables) (list_vals x) vs ->
  agree_msg wkt_tables x (DM 6 [(1, SVal (VList vs))]).
Proof.
  intros Ed Hm F. apply agree_message; [exact Ed| | |]; intros n f Hf; rewrite Ed in Hf; destruct (listv_fields _ _ Hf) as (-> & En & Ep & El & Em & Ek);
    unfold has_field, fs_has, get_field_value, fs_get; cbn [dm_fields]; rewrite En; change (fs_get_value [(1, SVal (VList vs))] 1) with (Some (VList vs));
    assert (Elen : length (list_vals x) = length vs) by (clear - F; induction F; cbn; congruence);
    destruct (listv_get x Ed Hm) as [Eg|[Eg E0]]; rewrite Eg; rewrite ?E0 in *.
  - rewrite !list_def_has by assumption. destruct (list_vals x), vs; try discriminate Elen; reflexivity.
  - rewrite !list_def_has by assumption. destruct vs; [reflexivity|discriminate Elen].
  - intros _. apply agree_list. exact F.
  - discriminate.
  - rewrite list_def_has by assumption. destruct (list_vals x); [|discriminate]. intros _. destruct vs; [reflexivity|discriminate Elen].
  - intros _. unfold fd_default_value. rewrite El. destruct vs; [reflexivity|discriminate Elen].
Qed.
(** a Value holds one thing *)
Lemma agree_value x n v v' : dm_desc x = 5%nat -> msg_ok wkt_tables x -> In (n, SVal v) (dm_fields x) -> agree wkt_tables v v' ->
  agree wkt_tables (VMessage x) (wvalue n v').
Proof.
  intros Ed Hm Hin A. pose proof (bt_In_get _ _ _ (mo_sorted _ _ Hm) Hin) as Hg.
  assert (G : forall k f, find_desc wkt_tables 5 k = Some f ->
    fs_get_value (dm_fields x) k = (if k =? n then Some v else None) /\ fs_get_value [(n, SVal v')] k = (if k =? n then Some v' else None)).
  { intros k f Hf. split.
    - destruct (k =? n) eqn:E; [apply N.eqb_eq in E; subst; unfold fs_get_value; now rewrite Hg|]. unfold fs_get_value.
      destruct (bt_get k (dm_fields x)) as [[|w|]|] eqn:Eb; try reflexivity. exfalso. apply N.eqb_neq in E. apply E.
      pose proof (mo_oneof _ _ Hm) as Ho. unfold oneofs_ok in Ho. rewrite Ed in Ho.
      destruct (value_fields _ _ Hf) as (Ek & _ & E1 & _).
      pose proof (mo_slots _ _ Hm _ _ Hg) as Hs. unfold ok_slot in Hs. cbn [fst snd] in Hs. rewrite Ed in Hs.
      destruct (find_desc wkt_tables 5 n) as [g|] eqn:Eg; [|discriminate Hs]. destruct (value_fields _ _ Eg) as (Ek' & _ & E1' & _ & _ & E2').
      destruct (N.eq_dec k n) as [|Hne]; [assumption|]. exfalso. apply (Ho n g v _ k w Hg (value_field _ _ Eg) E1'); [|exact Hne|exact Eb].
      destruct (value_fields _ _ Hf) as (_ & _ & _ & _ & _ & E3). cbn. clear - E3. intuition.
    - unfold fs_get_value. cbn [bt_get]. destruct (k =? n); reflexivity. }
  apply agree_message; [exact Ed| | |]; intros k f Hf; rewrite Ed in Hf; destruct (G _ _ Hf) as [G1 G2]; destruct (value_fields _ _ Hf) as (En & Ep & _);
    unfold has_field, fs_has, get_field_value, fs_get; cbn [dm_fields]; rewrite En, G1, G2; destruct (k =? n).
  - unfold fd_has. now rewrite Ep.
  - reflexivity.
  - intros _. exact A.
  - discriminate.
  - unfold fd_has. rewrite Ep. discriminate.
  - reflexivity.
Qed.

(** ** There and back *)
Section Tree.
  Variable (E : json_externs) (t : tables) (deny : bool).
  Record back (v : value) (j : json) (v' : value) : Prop := {
    b_ser : ser_wvalue v = JOk j;
    b_de : de E t deny (carried E j) false (TGoal GWValue) = JOk (Some v');
    b_agree : agree wkt_tables v v';
    b_ok : wmsg v';
    b_zeros : forall f, zeros_kept wkt_tables v' f = true;
    b_bulk : bulk v' <= bulk v;
    b_depth : (depth v' <= depth v)%nat
  }.
  Definition comes_back (v : value) : Prop := wmsg v -> tree_okb E v = true -> exists j v', back v j v'.

  Definition q_in (q : value * json * value) : value := fst (fst q).
  Definition q_json (q : value * json * value) : json := snd (fst q).
  Definition q_out (q : value * json * value) : value := snd q.
  Definition q_back (q : value * json * value) : Prop := back (q_in q) (q_json q) (q_out q).
  Lemma back_list vs : Forall comes_back vs -> (forall v, In v vs -> wmsg v) -> forallb (tree_okb E) vs = true ->
    exists q, map q_in q = vs /\ Forall q_back q.
  Proof.
    induction 1 as [|v vs Hv F IH]; intros Hw Ht; [exists []; split; [reflexivity|constructor]|].
    cbn [forallb] in Ht. apply andb_true_iff in Ht. destruct Ht as [H1 H2].
    destruct (Hv (Hw v (or_introl eq_refl)) H1) as (j & v' & B). destruct IH as (q & E1 & E2); [intros; apply Hw; right; assumption|exact H2|].
    exists ((v, j, v') :: q). split; [cbn; now rewrite E1|]. constructor; [exact B|exact E2].
  Qed.
  Lemma de_wlist_back q : Forall q_back q ->
    de_wlist (map (fun x b g' => de E t deny x b g') (map (carried E) (map q_json q))) false = JOk (map q_out q).
  Proof.
    induction 1 as [|[[v j] v'] q B F IH]; [reflexivity|]. cbn [map de_wlist]. cbn [q_json q_out fst snd] in *.
    change (q_back (v, j, v')) with (back v j v') in B. rewrite (b_de _ _ _ B). cbn [jbind]. rewrite IH. reflexivity.
  Qed.

  Lemma q_agree q : Forall q_back q -> Forall2 (agree wkt_tables) (map q_in q) (map q_out q).
  Proof. induction 1 as [|x q B F IH]; constructor; [exact (b_agree _ _ _ B)|exact IH]. Qed.
  Lemma max_le {A} (h g : A -> nat) l : (forall x, In x l -> (h x <= g x)%nat) -> (list_max (map h l) <= list_max (map g l))%nat.
  Proof.
    induction l as [|x l IH]; intros H; [apply le_n|]. cbn. apply Nat.max_le_compat; [apply H; left; reflexivity|apply IH; intros; apply H; right; assumption].
  Qed.

  (** the contents of a ListValue *)
  Record list_back (x : dynmsg) (js : list json) (vs : list value) : Prop := {
    lb_ser : forall d post, ser_wvalue (VMessage (DM d ((6, SVal (VMessage x)) :: post))) = JOk (JArr js);
    lb_de : de_wlist (map (fun x b g' => de E t deny x b g') (map (carried E) js)) false = JOk vs;
    lb_agree : agree_msg wkt_tables x (wlist vs);
    lb_ok : ok_msg wkt_tables (wlist vs) = true;
    lb_zeros : zeros_kept_msg wkt_tables (wlist vs) = true;
    lb_bulk : bulk_msg (wlist vs) <= bulk_msg x;
    lb_depth : (msg_depth (wlist vs) <= msg_depth x)%nat
  }.
  Lemma slot_le (h : value -> N) x n v : In (n, SVal v) (dm_fields x) -> bulk v <= bulk_msg x.
  Proof.
    unfold bulk_msg. induction (dm_fields x) as [|[k s] l IH]; [intros []|]. rewrite sumN_cons. intros [[= -> ->]|Hin]; [cbn; lia|]. specialize (IH Hin). lia.
  Qed.
  Lemma slot_max x n v : In (n, SVal v) (dm_fields x) -> (depth v <= msg_depth x)%nat.
  Proof.
    unfold msg_depth. induction (dm_fields x) as [|[k s] l IH]; [intros []|]. cbn [map list_max fold_right]. intros [[= -> ->]|Hin]; [apply Nat.le_max_l|].
    etransitivity; [apply IH, Hin|]. apply Nat.le_max_r.
  Qed.
  Lemma list_vals_in x : dm_desc x = 6%nat -> msg_ok wkt_tables x -> list_vals x <> [] -> In (1, SVal (VList (list_vals x))) (dm_fields x).
  Proof.
    intros Ed Hm Hne. destruct (listv_get x Ed Hm) as [Eg|[_ E0]]; [|contradiction]. unfold fs_get_value in Eg.
    destruct (bt_get 1 (dm_fields x)) as [[|v|]|] eqn:Eb; try discriminate Eg. injection Eg as ->. apply bt_get_In, Eb.
  Qed.
  Lemma struct_map_in x : dm_desc x = 3%nat -> msg_ok wkt_tables x -> struct_map x <> [] -> In (1, SVal (VMap (struct_map x))) (dm_fields x).
  Proof.
    intros Ed Hm Hne. destruct (struct_get x Ed Hm) as [Eg|[_ E0]]; [|contradiction]. unfold fs_get_value in Eg.
    destruct (bt_get 1 (dm_fields x)) as [[|v|]|] eqn:Eb; try discriminate Eg. injection Eg as ->. apply bt_get_In, Eb.
  Qed.
  Definition inner (v : value) : Prop :=
    match v with VMap kvs => Forall (fun e => comes_back (snd e)) kvs | VList vs => Forall comes_back vs | _ => True end.
  Lemma listv_back x : dm_desc x = 6%nat -> msg_ok wkt_tables x -> Forall (fun kv => slot_all inner (snd kv)) (dm_fields x) ->
    trees_okb E x = true -> exists js vs, list_back x js vs.
  Proof.
    intros Ed Hm Hi Ht.
    assert (Hall : Forall comes_back (list_vals x) /\ (forall v, In v (list_vals x) -> wmsg v) /\ forallb (tree_okb E) (list_vals x) = true).
    { destruct (list_vals x) as [|v0 l0] eqn:Ev; [repeat split; [constructor|intros v []]|]. rewrite <- Ev.
      assert (Hin : In (1, SVal (VList (list_vals x))) (dm_fields x)) by (apply list_vals_in; auto; congruence).
      rewrite Forall_forall in Hi. split; [exact (Hi _ Hin)|]. split.
      - destruct (list_slots x Ed Hm _ _ Hin) as (_ & l & [= E1] & Hl). rewrite E1. exact Hl.
      - unfold trees_okb in Ht. rewrite forallb_forall in Ht. exact (Ht _ Hin). }
    destruct Hall as (H1 & H2 & H3). destruct (back_list _ H1 H2 H3) as (q & E1 & F). exists (map q_json q), (map q_out q).
    assert (Hok : Forall wmsg (map q_out q)) by (apply Forall_forall; intros v' Hv; apply in_map_iff in Hv; destruct Hv as (e & <- & He); rewrite Forall_forall in F; exact (b_ok _ _ _ (F _ He))).
    constructor.
    - intros d post. rewrite list_ser by assumption. rewrite <- E1. rewrite map_map. erewrite (jall_ok _ (map q_json q)); [reflexivity|].
      clear - F. induction F as [|e q B F IH]; constructor; [exact (b_ser _ _ _ B)|exact IH].
    - apply de_wlist_back, F.
    - apply agree_listv; [exact Ed|exact Hm|]. rewrite <- E1. apply q_agree, F.
    - apply wlist_good, Hok.
    - unfold zeros_kept_msg, wlist. cbn [dm_fields forallb fst snd dm_desc]. destruct (find_desc wkt_tables 6 1) as [g|] eqn:Eg; [|reflexivity].
      rewrite andb_true_r. unfold zero_kept. rewrite orb_true_r. cbn [zeros_kept andb]. apply forallb_forall. intros v' Hv. apply in_map_iff in Hv.
      destruct Hv as (e & <- & He). rewrite Forall_forall in F. apply (b_zeros _ _ _ (F _ He)).
    - unfold wlist, bulk_msg at 1. cbn [dm_fields]. rewrite sumN_cons. cbn [snd bulk_slot bulk]. change (sumN _ []) with 0. rewrite sumN_map, N.add_0_r.
      transitivity (bulk (VList (list_vals x))).
      + cbn [bulk]. rewrite <- E1, sumN_map. apply sumN_le. intros e He. rewrite Forall_forall in F. apply (b_bulk _ _ _ (F _ He)).
      + destruct (list_vals x) as [|v0 l0] eqn:Ev; [apply N.le_0_l|]. rewrite <- Ev. apply (slot_le bulk x 1), list_vals_in; auto; congruence.
    - unfold wlist, msg_depth at 1. cbn [dm_fields map snd depth_slot depth list_max fold_right]. rewrite Nat.max_0_r, map_map.
      transitivity (depth (VList (list_vals x))).
      + cbn [depth]. rewrite <- E1, map_map. apply max_le. intros e He. rewrite Forall_forall in F. apply (b_depth _ _ _ (F _ He)).
      + destruct (list_vals x) as [|v0 l0] eqn:Ev; [apply Nat.le_0_l|]. rewrite <- Ev. apply (slot_max x 1), list_vals_in; auto; congruence.
  Qed.

  (** the contents of a Struct *)
  Record struct_back (x : dynmsg) (ms : list (str * json)) (vs : list (str * value)) : Prop := {
    sb_ser : forall d post, ser_wvalue (VMessage (DM d ((5, SVal (VMessage x)) :: post))) = JOk (JObj ms);
    sb_de : de_wstruct (map (fun kv => (fst kv, fun b g' => de E t deny (snd kv) b g')) (map (fun kv => (fst kv, carried E (snd kv))) ms)) false = JOk vs;
    sb_agree : agree_msg wkt_tables x (wstruct vs);
    sb_ok : ok_msg wkt_tables (wstruct vs) = true;
    sb_zeros : zeros_kept_msg wkt_tables (wstruct vs) = true;
    sb_bulk : bulk_msg (wstruct vs) <= bulk_msg x;
    sb_depth : (msg_depth (wstruct vs) <= msg_depth x)%nat
  }.
  Definition q_entry (e : str * (value * json * value)) : mapkey * value := (MKString (fst e), q_in (snd e)).
  Definition q_result (e : str * (value * json * value)) : mapkey * value := (MKString (fst e), q_out (snd e)).
  Lemma back_map kvs : Forall (fun e => comes_back (snd e)) kvs ->
    (forall k w, In (k, w) kvs -> (exists s, k = MKString s /\ str_ok s) /\ wmsg w) -> forallb (fun e => tree_okb E (snd e)) kvs = true ->
    exists q, map q_entry q = kvs /\ Forall (fun e => q_back (snd e) /\ str_ok (fst e)) q.
  Proof.
    induction 1 as [|[k v] vs Hv F IH]; intros Hw Ht; [exists []; split; [reflexivity|constructor]|].
    cbn [forallb] in Ht. apply andb_true_iff in Ht. destruct Ht as [H1 H2]. cbn [snd] in *.
    destruct (Hw k v (or_introl eq_refl)) as ((s & -> & Hs) & Hwv).
    destruct (Hv Hwv H1) as (j & v' & B). destruct IH as (q & E1 & E2); [intros; apply Hw; right; assumption|exact H2|].
    exists ((s, (v, j, v')) :: q). split; [cbn; now rewrite E1|]. constructor; [split; [exact B|exact Hs]|exact E2].
  Qed.
  Lemma de_wstruct_back q : Forall (fun e => q_back (snd e)) q ->
    de_wstruct (map (fun kv => (fst kv, fun b g' => de E t deny (snd kv) b g')) (map (fun kv => (fst kv, carried E (snd kv))) (map (on_snd q_json) q))) false
    = JOk (map (on_snd q_out) q).
  Proof.
    induction 1 as [|[k [[v j] v']] q B F IH]; [reflexivity|]. cbn [map on_snd fst snd de_wstruct q_json q_out] in *.
    change (q_back (v, j, v')) with (back v j v') in B. rewrite (b_de _ _ _ B). cbn [jbind]. rewrite IH. reflexivity.
  Qed.
  Lemma same_entry {A} (q : list (str * A)) e e' : NoDup (map fst q) -> In e q -> In e' q -> fst e = fst e' -> e = e'.
  Proof.
    induction q as [|x q IH]; intros Hn H1 H2 Ef; [destruct H1|]. cbn in Hn. inversion_clear Hn as [|? ? Hni Hn'].
    destruct H1 as [->|H1], H2 as [->|H2]; auto; exfalso; apply Hni; [rewrite Ef|rewrite <- Ef]; apply in_map; assumption.
  Qed.
  Lemma structv_back x : dm_desc x = 3%nat -> msg_ok wkt_tables x -> Forall (fun kv => slot_all inner (snd kv)) (dm_fields x) ->
    trees_okb E x = true -> exists ms vs, struct_back x ms vs.
  Proof.
    intros Ed Hm Hi Ht.
    assert (Hall : Forall (fun e => comes_back (snd e)) (struct_map x) /\
      (forall k w, In (k, w) (struct_map x) -> (exists s, k = MKString s /\ str_ok s) /\ wmsg w) /\
      forallb (fun e => tree_okb E (snd e)) (struct_map x) = true /\ keys_nodupb (struct_map x) = true).
    { destruct (struct_map x) as [|v0 l0] eqn:Ev; [repeat split; [constructor|destruct H|destruct H]|]. rewrite <- Ev.
      assert (Hin : In (1, SVal (VMap (struct_map x))) (dm_fields x)) by (apply struct_map_in; auto; congruence).
      rewrite Forall_forall in Hi. split; [exact (Hi _ Hin)|].
      destruct (struct_slots x Ed Hm _ _ Hin) as (_ & l & [= E1] & Hn & Hl). rewrite E1. split; [exact Hl|].
      split; [|exact Hn]. rewrite <- E1. unfold trees_okb in Ht. rewrite forallb_forall in Ht. exact (Ht _ Hin). }
    destruct Hall as (H1 & H2 & H3 & H4). destruct (back_map _ H1 H2 H3) as (q & E1 & F).
    assert (Fb : Forall (fun e => q_back (snd e)) q) by (eapply Forall_impl; [|exact F]; cbn; tauto).
    assert (Hnd : NoDup (map fst q)).
    { rewrite <- E1 in H4. clear - H4. induction q as [|[k e] q IH]; constructor; cbn [map q_entry keys_nodupb fst] in H4; apply andb_true_iff in H4; destruct H4 as [A B]; [|apply IH, B].
      intros Hin. apply negb_true_iff in A. apply in_map_iff in Hin. destruct Hin as ([k' e'] & Ek & Hin). cbn [fst] in Ek. subst k'.
      assert (existsb (fun kv => mk_eqb (MKString k) (fst kv)) (map q_entry q) = true); [|congruence].
      apply existsb_exists. exists (q_entry (k, e')). split; [apply in_map, Hin|]. cbn. apply bytes_eqb_refl. }
    set (q1 := sort_members q). assert (P1 : Permutation q1 q) by (apply sort_perm, Hnd).
    assert (Hnd1 : NoDup (map fst q1)) by (eapply Permutation_NoDup; [apply Permutation_map; symmetry; exact P1|exact Hnd]).
    set (q2 := sort_members q1). assert (P2 : Permutation q2 q) by (etransitivity; [apply sort_perm, Hnd1|exact P1]).
    exists (map (on_snd q_json) q1), (map (on_snd q_out) q1).
    assert (Ew : wstruct (map (on_snd q_out) q1) = DM 3 [(1, SVal (VMap (map q_result q2)))]).
    { unfold wstruct. rewrite sort_on, map_map. reflexivity. }
    assert (Fin : forall e, In e q2 -> q_back (snd e) /\ str_ok (fst e)).
    { intros e He. rewrite Forall_forall in F. apply F. eapply Permutation_in; [exact P2|exact He]. }
    constructor.
    - intros d post. rewrite struct_ser by assumption. rewrite <- E1, map_map. erewrite (jall_ok _ (map (on_snd q_json) q)).
      + cbn [jbind]. now rewrite sort_on.
      + clear - Fb. induction Fb as [|e q B F IH]; constructor; [|exact IH]. cbn [q_entry fst snd]. rewrite (b_ser _ _ _ B). reflexivity.
    - apply de_wstruct_back. apply Forall_forall. intros e He. rewrite Forall_forall in Fb. apply Fb. eapply Permutation_in; [exact P1|exact He].
    - rewrite Ew. apply agree_struct; [exact Ed|exact Hm|]. rewrite <- E1. apply agree_map.
      + rewrite !map_length. symmetry. apply Permutation_length, P2.
      + intros k. rewrite !map_get_none_keys, !map_map. cbn [q_entry q_result fst].
        assert (P : Permutation (map (fun x => MKString (fst x)) q2) (map (fun x => MKString (fst x)) q)) by (apply Permutation_map, P2).
        split; intros Hn Hin; apply Hn; [eapply Permutation_in; [exact P|exact Hin]|eapply Permutation_in; [symmetry; exact P|exact Hin]].
      + intros k a b Ha Hb. apply map_get_in in Ha, Hb. apply in_map_iff in Ha, Hb. destruct Ha as (e & Ea & Ha), Hb as (e' & Eb & Hb).
        apply (Permutation_in _ P2) in Hb. unfold q_entry in Ea. unfold q_result in Eb. injection Ea as Ek Ea. injection Eb as Ek' Eb.
        assert (e = e') by (apply (same_entry q); auto; congruence). subst e' a b. rewrite Forall_forall in Fb. exact (b_agree _ _ _ (Fb _ Ha)).
    - apply wstruct_good. apply Forall_forall. intros e He. apply in_map_iff in He. destruct He as (e0 & <- & He). cbn [on_snd fst snd].
      rewrite Forall_forall in F. destruct (F e0) as [B Hs]; [eapply Permutation_in; [exact P1|exact He]|]. split; [exact Hs|exact (b_ok _ _ _ B)].
    - rewrite Ew. unfold zeros_kept_msg. cbn [dm_fields forallb fst snd dm_desc]. destruct (find_desc wkt_tables 3 1) as [g|] eqn:Eg; [|reflexivity].
      rewrite andb_true_r. unfold zero_kept. rewrite orb_true_r. cbn [zeros_kept andb]. destruct (kind_msg (fd_kind g)) as [e|]; [|reflexivity].
      destruct (entry_value wkt_tables e) as [vf|]; [|reflexivity]. apply forallb_forall. intros kv Hv. apply in_map_iff in Hv.
      destruct Hv as (e0 & <- & He). destruct (Fin _ He) as [B _]. cbn [q_result fst snd]. rewrite (b_zeros _ _ _ B). rewrite andb_true_r.
      destruct (wmsg_inv _ (b_ok _ _ _ B)) as (y & -> & _). apply orb_true_r.
    - rewrite Ew. unfold bulk_msg at 1. cbn [dm_fields]. rewrite sumN_cons. cbn [snd bulk_slot bulk]. change (sumN _ []) with 0. rewrite sumN_map, N.add_0_r.
      transitivity (bulk (VMap (struct_map x))).
      + cbn [bulk]. rewrite <- E1, sumN_map. rewrite (sumN_perm _ _ _ P2). apply sumN_le. intros e He. cbn [q_result q_entry fst snd]. rewrite Forall_forall in Fb.
        pose proof (b_bulk _ _ _ (Fb _ He)). lia.
      + destruct (struct_map x) as [|v0 l0] eqn:Ev; [apply N.le_0_l|]. rewrite <- Ev. apply (slot_le bulk x 1), struct_map_in; auto; congruence.
    - rewrite Ew. unfold msg_depth at 1. cbn [dm_fields map snd depth_slot depth list_max fold_right]. rewrite Nat.max_0_r, map_map.
      transitivity (depth (VMap (struct_map x))).
      + cbn [depth]. rewrite <- E1, map_map. apply List.list_max_le. apply Forall_forall. intros n Hn. apply in_map_iff in Hn. destruct Hn as (e & <- & He).
        destruct (Fin _ He) as [B _]. cbn [q_result snd]. etransitivity; [exact (b_depth _ _ _ B)|].
        assert (Hq : In (depth (q_in (snd e))) (map (fun e => depth (snd (q_entry e))) q)) by (apply in_map_iff; exists e; split; [reflexivity|eapply Permutation_in; [exact P2|exact He]]).
        revert Hq. generalize (map (fun e => depth (snd (q_entry e))) q). intros l Hl. pose proof (proj1 (List.list_max_le l (list_max l)) (le_n _)) as Hf. rewrite Forall_forall in Hf. apply Hf, Hl.
      + destruct (struct_map x) as [|v0 l0] eqn:Ev; [apply Nat.le_0_l|]. rewrite <- Ev. apply (slot_max x 1), struct_map_in; auto; congruence.
  Qed.

  Definition inner2 (v : value) : Prop := match v with VMessage x => Forall (fun kv => slot_all inner (snd kv)) (dm_fields x) | _ => True end.
  Lemma zeros_wvalue n v : find_desc wkt_tables 5 n <> None -> (forall f, find_desc wkt_tables 5 n = Some f -> zeros_kept wkt_tables v f = true) ->
    forall f, zeros_kept wkt_tables (wvalue n v) f = true.
  Proof.
    intros Hf H f. cbn [zeros_kept wvalue forallb snd fst]. destruct (find_desc wkt_tables 5 n) as [g|] eqn:Eg; [|contradiction].
    rewrite (H g eq_refl), andb_true_r, andb_true_r. destruct (value_fields _ _ Eg) as (_ & Ep & _). unfold zero_kept. now rewrite Ep.
  Qed.
  Lemma back_one d pre n v post j v' : ok_elem wkt_tables (VMessage (DM d (pre ++ (n, SVal v) :: post))) (KMessage 5) = true ->
    Forall valueless pre -> ser_wvalue (VMessage (DM d ((n, SVal v) :: post))) = JOk j ->
    de E t deny (carried E j) false (TGoal GWValue) = JOk (Some (wvalue n v')) ->
    agree wkt_tables v v' -> wmsg (wvalue n v') ->
    (forall f, find_desc wkt_tables 5 n = Some f -> zeros_kept wkt_tables v' f = true) ->
    bulk v' <= bulk v -> (depth v' <= depth v)%nat ->
    back (VMessage (DM d (pre ++ (n, SVal v) :: post))) j (wvalue n v').
  Proof.
    intros Hok Hpre Hs Hd Ha Hw Hz Hb Hdp. destruct (wmsg_inv _ Hok) as (y & [= <-] & Ed & Hm). apply ok_msg_iff in Hm. cbn [dm_desc] in Ed.
    assert (Hin : In (n, SVal v) (pre ++ (n, SVal v) :: post)) by (apply in_or_app; right; left; reflexivity).
    constructor.
    - now rewrite ser_skip.
    - exact Hd.
    - apply agree_value with (v := v); auto.
    - exact Hw.
    - apply zeros_wvalue; [|exact Hz]. pose proof (mo_slots _ _ Hm _ _ (bt_In_get _ _ _ (mo_sorted _ _ Hm) Hin)) as Ho.
      unfold ok_slot in Ho. cbn [fst snd dm_desc] in Ho. rewrite Ed in Ho. destruct (find_desc wkt_tables 5 n); [discriminate|discriminate Ho].
    - unfold wvalue. rewrite !bulk_message. apply N.add_le_mono_l. unfold bulk_msg at 1. cbn [dm_fields]. rewrite sumN_cons. cbn [snd bulk_slot].
      change (sumN _ []) with 0. pose proof (slot_le bulk (DM d (pre ++ (n, SVal v) :: post)) n v Hin). lia.
    - unfold wvalue. change (S (msg_depth (DM 5 [(n, SVal v')])) <= S (msg_depth (DM d (pre ++ (n, SVal v) :: post))))%nat. apply le_n_S.
      unfold msg_depth at 1. cbn [dm_fields map snd depth_slot list_max fold_right]. rewrite Nat.max_0_r. etransitivity; [exact Hdp|]. apply (slot_max _ n), Hin.
  Qed.
  Lemma tree_back v : comes_back v /\ inner v /\ inner2 v.
  Proof.
    induction v as [b|z|z|n|n|n|n|s|s|z|d fs IH|vs IH|kvs IH] using value_ind';
      try (split; [intros Hw; destruct (wmsg_inv _ Hw) as (? & He & _); discriminate He|split; exact Logic.I]).
    2: { split; [intros Hw; destruct (wmsg_inv _ Hw) as (? & He & _); discriminate He|]. split; [|exact Logic.I].
         eapply Forall_impl; [|exact IH]. cbn. tauto. }
    2: { split; [intros Hw; destruct (wmsg_inv _ Hw) as (? & He & _); discriminate He|]. split; [|exact Logic.I].
         eapply Forall_impl; [|exact IH]. cbn. tauto. }
    split; [|split; [exact Logic.I|cbn [inner2 dm_fields]; eapply Forall_impl; [|exact IH]; intros [k s]; destruct s; cbn; tauto]].
    intros Hw Ht. pose proof Hw as Hok. unfold wmsg in Hok. cbn [tree_okb] in Ht. apply andb_true_iff in Ht. destruct Ht as [Hex Ht].
    destruct (first_value fs Hex) as (pre & n & v & post & -> & Hpre).
    assert (Hin : In (n, SVal v) (pre ++ (n, SVal v) :: post)) by (apply in_or_app; right; left; reflexivity).
    rewrite forallb_forall in Ht. specialize (Ht _ Hin). cbn [snd] in Ht. rewrite Forall_forall in IH. specialize (IH _ Hin). cbn [snd slot_all] in IH. destruct IH as (_ & _ & Hi).
    destruct (wmsg_inv _ Hw) as (y & [= <-] & Ed & Hm). apply ok_msg_iff in Hm. cbn [dm_desc] in Ed.
    pose proof (mo_slots _ _ Hm _ _ (bt_In_get _ _ _ (mo_sorted _ _ Hm) Hin)) as Ho. unfold ok_slot in Ho. cbn [fst snd dm_desc] in Ho. rewrite Ed in Ho.
    destruct (find_desc wkt_tables 5 n) as [f|] eqn:Ef; [|discriminate Ho].
    destruct (value_fields _ _ Ef) as (En & Ep & Eo & El & Em & Ek).
    assert (Hel : ok_elem wkt_tables v (fd_kind f) = true).
    { destruct v; try (rewrite ok_field_plain in Ho by reflexivity; apply andb_true_iff in Ho; tauto).
      - cbn [ok_field] in Ho. rewrite El in Ho. discriminate Ho.
      - cbn [ok_field] in Ho. rewrite Em in Ho. destruct (kind_msg (fd_kind f)); discriminate Ho. }
    destruct Ek as [[-> Ek]|[[-> Ek]|[[-> Ek]|[[-> Ek]|[[-> Ek]|[-> Ek]]]]]]; rewrite Ek in Hel.
    - (* null *) destruct v as [| | | | | | | | |z|m|l|l]; try discriminate Hel; try (match goal with x : dynmsg |- _ => destruct x; discriminate Hel end). apply Z.eqb_eq in Ht. subst z.
      exists JNull, (wvalue 1 (VEnum 0)).
      assert (wmsg (wvalue 1 (VEnum 0))) by (unfold wmsg; vm_compute; reflexivity). apply back_one; auto; try reflexivity. apply agree_scalar. reflexivity.
    - (* number *) destruct v as [| | | | | |b| | | | | |]; try discriminate Hel; try (match goal with x : dynmsg |- _ => destruct x; discriminate Hel end). apply andb_true_iff in Ht. destruct Ht as [Hfin Hc]. apply N.eqb_eq in Hc.
      exists (JF64 b), (wvalue 2 (VF64 b)). apply back_one; auto; try reflexivity.
      + cbn. now rewrite Hfin.
      + cbn [carried]. rewrite Hfin, Hc. reflexivity.
      + apply agree_scalar. reflexivity.
      + apply (watom_good 2 _ KDouble); [tauto|]. cbn in Hel. exact Hel.
    - (* string *) destruct v as [| | | | | | |s| | | | |]; try discriminate Hel; try (match goal with x : dynmsg |- _ => destruct x; discriminate Hel end).
      exists (JStr s), (wvalue 3 (VString s)). apply back_one; auto; try reflexivity.
      + apply agree_scalar. reflexivity.
      + apply (watom_good 3 _ KString); [tauto|]. cbn in Hel. exact Hel.
    - (* bool *) destruct v as [b| | | | | | | | | | | |]; try discriminate Hel; try (match goal with x : dynmsg |- _ => destruct x; discriminate Hel end).
      exists (JBool b), (wvalue 4 (VBool b)). apply back_one; auto; try reflexivity.
      + apply agree_scalar. reflexivity.
    - (* struct *) destruct (ok_elem_msg_inv _ _ (KMessage 3) 3 eq_refl Hel) as (x & -> & Ex & Hx). apply ok_msg_iff in Hx.
      assert (Htx : trees_okb E x = true) by (destruct x; exact Ht).
      destruct (structv_back x Ex Hx Hi Htx) as (ms & vs & B).
      exists (JObj ms), (wvalue 5 (VMessage (wstruct vs))). apply back_one; auto.
      + apply (sb_ser _ _ _ B).
      + cbn [carried de]. cbn [target_goal de_obj]. rewrite (sb_de _ _ _ B). reflexivity.
      + exact (sb_agree _ _ _ B).
      + apply (wsub_good 5 3); [tauto|reflexivity|exact (sb_ok _ _ _ B)].
      + intros g _. exact (sb_zeros _ _ _ B).
      + rewrite !bulk_message. apply N.add_le_mono_l. exact (sb_bulk _ _ _ B).
      + destruct x as [dx fx]. change (S (msg_depth (wstruct vs)) <= S (msg_depth (DM dx fx)))%nat. apply le_n_S. exact (sb_depth _ _ _ B).
    - (* list *) destruct (ok_elem_msg_inv _ _ (KMessage 6) 6 eq_refl Hel) as (x & -> & Ex & Hx). apply ok_msg_iff in Hx.
      assert (Htx : trees_okb E x = true) by (destruct x; exact Ht).
      destruct (listv_back x Ex Hx Hi Htx) as (ms & vs & B).
      exists (JArr ms), (wvalue 6 (VMessage (wlist vs))). apply back_one; auto.
      + apply (lb_ser _ _ _ B).
      + cbn [carried de]. cbn [target_goal de_arr]. rewrite (lb_de _ _ _ B). reflexivity.
      + exact (lb_agree _ _ _ B).
      + apply (wsub_good 6 6); [tauto|reflexivity|exact (lb_ok _ _ _ B)].
      + intros g _. exact (lb_zeros _ _ _ B).
      + rewrite !bulk_message. apply N.add_le_mono_l. exact (lb_bulk _ _ _ B).
      + destruct x as [dx fx]. change (S (msg_depth (wlist vs)) <= S (msg_depth (DM dx fx)))%nat. apply le_n_S. exact (lb_depth _ _ _ B).
  Qed.
  Theorem struct_tree_back x : dm_desc x = 3%nat -> ok_msg wkt_tables x = true -> trees_okb E x = true -> exists ms vs, struct_back x ms vs.
  Proof. intros Ed Hm Ht. apply ok_msg_iff in Hm. apply structv_back; auto. exact (proj2 (proj2 (tree_back (VMessage x)))). Qed.
  Theorem list_tree_back x : dm_desc x = 6%nat -> ok_msg wkt_tables x = true -> trees_okb E x = true -> exists js vs, list_back x js vs.
  Proof. intros Ed Hm Ht. apply ok_msg_iff in Hm. apply listv_back; auto. exact (proj2 (proj2 (tree_back (VMessage x)))). Qed.
  Theorem value_tree_back v : wmsg v -> tree_okb E v = true -> exists j v', back v j v'.
  Proof. exact (proj1 (tree_back v)). Qed.
End Tree.
