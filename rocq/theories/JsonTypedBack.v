(** Messages of well-known types, Any aside, come back from JSON. *)
From Coq Require Import String.
From Verif Require Import Base BaseProofs Wire Unknown Value Descr Fields Codec DescrOk DescrProofs FieldsProofs MergeProofs
  RoundSpec RoundSame RoundMain ItemRound CompatSpec Compat Bulk AgreeProofs
  Float TextFormat TextParse Json JsonSer JsonDe JsonWkt JsonMask JsonNumbers JsonSafe JsonWktBack JsonTree JsonScalarBack.
Open Scope list_scope.
Open Scope N_scope.

(** ** What comes back *)

(** Conditions on a typed message. *)
Definition typed_safe (E : json_externs) (w : wkt) (x : dynmsg) : Prop :=
  match w with
  | WAny | WEmpty => True
  | WTimestamp =>
      let s := as_Z (typed_get x 1) in
      let n := as_Z (typed_get x 2) in
      check_timestamp s = true /\ strict_rfc3339 (jx_show_timestamp E s n) = true /\
      jx_parse_timestamp E (jx_show_timestamp E s n) = Some (s, n)
  | WDuration =>
      let s := as_Z (typed_get x 1) in
      let n := as_Z (typed_get x 2) in
      check_duration s n = true /\ jx_parse_duration E (jx_show_duration E s n) = Some (s, n)
  | WStruct | WList => trees_okb E x = true
  | WValue => tree_okb E (VMessage x) = true
  | WMask => mask_out [] (mask_paths x) <> None /\ Forall mask_path_fits (mask_paths x)
  | WWrap _ =>
      match typed_get x 1 with
      | VF32 b => f32_finite b = true /\ float_back32 E b = true /\ b <> sign32
      | VF64 b => f64_finite b = true /\ float_back64 E b = true /\ b <> sign64
      | _ => True
      end
  end.
(** Conditions on a message of the pool: its size is a number of the machine, no
    zero loses its sign on the way to the typed message, and the latter comes
    back. *)
Definition wkt_safe (E : json_externs) (t : tables) (w : wkt) (m : dynmsg) : Prop :=
  (msg_depth m <= 100)%nat /\ bulk_msg m < 2 ^ 64 /\ zeros_kept_msg t m = true /\
  forall x, transcode_to t m (wkt_desc w) = JOk x -> typed_safe E w x.

(** ** The typed messages *)
Lemma wkt_in d n f : find_desc wkt_tables d n = Some f ->
  get_field wkt_tables d n = Some f /\ In f (msg_fields wkt_tables d) /\ fd_number f = n.
Proof.
  intros H. assert (G : get_field wkt_tables d n = Some f).
  { unfold find_desc in H. destruct (get_field wkt_tables d n) as [f0|] eqn:E; [exact H|].
    destruct (get_ext_inv _ _ _ _ (proj1 wkt_wf) H) as (_ & Hin & _).
    destruct (msg_exts_inv _ _ _ (proj1 wkt_wf) Hin) as (m & x & e & E1 & E2 & E3 & _). destruct x; discriminate E3. }
  pose proof (get_field_number _ _ _ _ (proj1 wkt_wf) G) as En. split; [exact G|]. split; [|exact En].
  rewrite <- En in G. now apply (msg_fields_get _ _ _ (proj1 wkt_wf)) in G.
Qed.
Lemma wkt_plain : defaults_plain wkt_tables.
Proof.
  intros d n f H _. pose proof (get_field_number _ _ _ _ (proj1 wkt_wf) H) as En. rewrite <- En in H.
  apply (msg_fields_get _ _ _ (proj1 wkt_wf)) in H.
  assert (A : forallb (fun i => forallb (fun f => match fd_default f with None => true | Some _ => false end) (msg_fields wkt_tables i)) (seq 0 18) = true) by (vm_compute; reflexivity).
  rewrite forallb_forall in A. destruct (Nat.ltb d 18) eqn:El.
  - apply Nat.ltb_lt in El. specialize (A d (proj2 (in_seq _ _ _) (conj (Nat.le_0_l _) El))). rewrite forallb_forall in A.
    specialize (A _ H). now destruct (fd_default f).
  - apply Nat.ltb_ge in El. unfold msg_fields in H. rewrite (proj2 (nth_error_None (t_messages wkt_tables) d)) in H; [destruct H|exact El].
Qed.
(** a message with all fields of another written out *)
Lemma agree_filled x fs : msg_ok wkt_tables x ->
  (forall n f, find_desc wkt_tables (dm_desc x) n = Some f ->
     fd_presence f = false /\ fs_get_value fs n = Some (get_field_value wkt_tables x f)) ->
  agree_msg wkt_tables x (DM (dm_desc x) fs).
Proof.
  intros Hx H. unfold agree_msg. apply agree_message; [reflexivity| | |]; cbn [dm_desc]; intros n f Hf; destruct (wkt_in _ _ _ Hf) as (G & _ & En);
    destruct (H _ _ Hf) as [Hp Hg]; rewrite <- En in Hg.
  - unfold has_field at 2, fs_has. cbn [dm_fields]. rewrite Hg. unfold has_field, fs_has, get_field_value, fs_get.
    destruct (fs_get_value (dm_fields x) (fd_number f)); [reflexivity|]. symmetry. apply (default_not_set wkt_tables wkt_wf _ _ _ wkt_plain G Hp).
  - intros _. unfold get_field_value at 2, fs_get. cbn [dm_fields]. rewrite Hg. apply agree_refl.
  - intros _. unfold get_field_value at 2, fs_get. cbn [dm_fields]. now rewrite Hg.
Qed.
Lemma typed_get_field x n f : get_field wkt_tables (dm_desc x) n = Some f -> typed_get x n = get_field_value wkt_tables x f.
Proof. intros H. unfold typed_get, get_field_by_number. now rewrite H. Qed.
Lemma typed_get_ok x n f : msg_ok wkt_tables x -> find_desc wkt_tables (dm_desc x) n = Some f ->
  ok_field wkt_tables f (get_field_value wkt_tables x f) = true.
Proof.
  intros Hx Hf. destruct (wkt_in _ _ _ Hf) as (_ & _ & En). rewrite <- En in Hf. destruct x as [d fs].
  exact (stored_ok wkt_tables wkt_wf d fs f Hx Hf).
Qed.

Lemma time_fields w n f : (w = 1 \/ w = 2)%nat -> find_desc wkt_tables w n = Some f ->
  fd_presence f = false /\ fd_is_list f = false /\ fd_is_map f = false /\ (n = 1 /\ fd_kind f = KInt64 \/ n = 2 /\ fd_kind f = KInt32).
Proof.
  intros Hw Hf. destruct (wkt_in _ _ _ Hf) as (_ & Hin & <-).
  destruct Hw as [-> | ->]; vm_compute in Hin; destruct Hin as [<-|[<-|[]]]; vm_compute; auto 10.
Qed.
Lemma time_back w x : (w = 1 \/ w = 2)%nat -> msg_ok wkt_tables x -> dm_desc x = w ->
  let s := as_Z (typed_get x 1) in let n := as_Z (typed_get x 2) in
  agree_msg wkt_tables x (typed_time w s n) /\ i64_ok s = true /\ i32_ok n = true.
Proof.
  intros Hw Hx Hd s n.
  assert (F1 : exists f1, find_desc wkt_tables w 1 = Some f1) by (destruct Hw as [-> | ->]; eexists; vm_compute; reflexivity).
  assert (F2 : exists f2, find_desc wkt_tables w 2 = Some f2) by (destruct Hw as [-> | ->]; eexists; vm_compute; reflexivity).
  destruct F1 as [f1 F1]. destruct F2 as [f2 F2].
  destruct (time_fields w 1 f1 Hw F1) as (P1 & L1 & M1 & [[_ K1]|[X _]]); [|discriminate X].
  destruct (time_fields w 2 f2 Hw F2) as (P2 & L2 & M2 & [[X _]|[_ K2]]); [discriminate X|].
  assert (F1' := F1). assert (F2' := F2). rewrite <- Hd in F1', F2'.
  pose proof (typed_get_ok x 1 f1 Hx F1') as O1. pose proof (typed_get_ok x 2 f2 Hx F2') as O2.
  pose proof (typed_get_field x 1 f1 (proj1 (wkt_in _ _ _ F1'))) as T1. pose proof (typed_get_field x 2 f2 (proj1 (wkt_in _ _ _ F2'))) as T2.
  assert (V1 : exists z, get_field_value wkt_tables x f1 = VI64 z /\ i64_ok z = true).
  { unfold ok_field in O1. rewrite L1, M1, K1 in O1. destruct (get_field_value wkt_tables x f1) as [| | | | | | | | | |m| |]; try discriminate O1; [eauto|destruct m; discriminate O1]. }
  assert (V2 : exists z, get_field_value wkt_tables x f2 = VI32 z /\ i32_ok z = true).
  { unfold ok_field in O2. rewrite L2, M2, K2 in O2. destruct (get_field_value wkt_tables x f2) as [| | | | | | | | | |m| |]; try discriminate O2; [eauto|destruct m; discriminate O2]. }
  destruct V1 as (z1 & V1 & Z1). destruct V2 as (z2 & V2 & Z2). unfold s, n. rewrite T1, T2, V1, V2. cbn [as_Z]. split; [|auto].
  unfold typed_time. rewrite <- Hd. apply agree_filled; [exact Hx|]. rewrite Hd. intros k f Hf.
  destruct (time_fields w k f Hw Hf) as (P & _ & _ & [[-> _]|[-> _]]); (split; [exact P|]).
  - rewrite F1 in Hf. injection Hf as <-. rewrite V1. reflexivity.
  - rewrite F2 in Hf. injection Hf as <-. rewrite V2. reflexivity.
Qed.
(** one field *)
Lemma one_back w x f : msg_ok wkt_tables x -> dm_desc x = w -> msg_fields wkt_tables w = [f] -> fd_number f = 1 -> fd_presence f = false ->
  agree_msg wkt_tables x (DM w [(1, SVal (get_field_value wkt_tables x f))]) /\
  (bulk_msg (DM w [(1, SVal (get_field_value wkt_tables x f))]) <= bulk_msg x \/ get_field_value wkt_tables x f = fd_default_value wkt_tables f).
Proof.
  intros Hx Hd Hf Hn Hp. split.
  - rewrite <- Hd. apply agree_filled; [exact Hx|]. intros n g Hg. destruct (wkt_in _ _ _ Hg) as (_ & Hin & En).
    rewrite Hd, Hf in Hin. destruct Hin as [<-|[]]. split; [exact Hp|]. rewrite <- En, Hn. reflexivity.
  - unfold get_field_value, fs_get, fs_get_value. rewrite Hn. destruct (bt_get 1 (dm_fields x)) as [[|v|us]|] eqn:Eb; auto.
    left. apply bt_get_In in Eb. cbn [bulk_msg dm_fields]. unfold bulk_msg at 1. cbn [dm_fields]. rewrite sumN_cons. cbn [snd bulk_slot].
    pose proof (slot_le bulk x 1 v Eb). unfold sumN. cbn [map fold_right]. lia.
Qed.

Lemma zero32 b : u32_ok b = true -> b <> sign32 -> (b =? 0) || negb (f32_zero b && f32_zero 0) = true.
Proof.
  unfold u32_ok, two32, sign32, f32_zero. intros H1 H2. change (0 mod 2147483648 =? 0) with true. rewrite andb_true_r.
  pose proof (N.div_mod' b 2147483648) as D. destruct (b mod 2147483648 =? 0) eqn:E1; [|now rewrite orb_true_r].
  assert (b / 2147483648 < 2) by (apply N.div_lt_upper_bound; lia). apply orb_true_iff. left. lia.
Qed.
Lemma zero64 b : u64_ok b = true -> b <> sign64 -> (b =? 0) || negb (f64_zero b && f64_zero 0) = true.
Proof.
  unfold u64_ok, two64, sign64, f64_zero. intros H1 H2. change (0 mod 9223372036854775808 =? 0) with true. rewrite andb_true_r.
  pose proof (N.div_mod' b 9223372036854775808) as D. destruct (b mod 9223372036854775808 =? 0) eqn:E1; [|now rewrite orb_true_r].
  assert (b / 9223372036854775808 < 2) by (apply N.div_lt_upper_bound; lia). apply orb_true_iff. left. lia.
Qed.

Section Typed.
  Variables (E : json_externs) (t : tables) (o : jopt) (deny : bool).
  Hypothesis Hwf : wf t.

  (** the part of [ser_wkt] after the transcoding *)
  Definition ser_typed (w : wkt) (x : dynmsg) : jres json :=
    match w with
    | WTimestamp =>
        let s := as_Z (typed_get x 1) in
        if check_timestamp s then JOk (JStr (jx_show_timestamp E s (as_Z (typed_get x 2)))) else JErr XTimestamp
    | WDuration =>
        let s := as_Z (typed_get x 1) in
        let n := as_Z (typed_get x 2) in
        if check_duration s n then JOk (JStr (jx_show_duration E s n)) else JErr XDuration
    | WStruct => ser_struct x
    | WList => ser_list x
    | WValue => ser_wvalue (VMessage x)
    | WMask => match mask_out [] (mask_paths x) with Some s => JOk (JStr s) | None => JErr XMask end
    | WEmpty => JOk (JObj [])
    | _ => ser_wrapped E t o (typed_get x 1)
    end.
  Record typed_back (w : wkt) (d : nat) (x : dynmsg) (j : json) (x' : dynmsg) : Prop := {
    tb_ser : ser_typed w x = JOk j;
    tb_de : de E t deny (carried E j) false (TGoal (GMsg d)) = make_message t d x';
    tb_agree : agree_msg wkt_tables x x';
    tb_ok : ok_msg wkt_tables x' = true;
    tb_zeros : zeros_kept_msg wkt_tables x' = true;
    tb_depth : (msg_depth x' <= 100)%nat;
    tb_bulk : bulk_msg x' < 2 ^ 64;
    tb_null : carried E j = JNull -> w = WValue
  }.

  Lemma wrap_fields i : (8 <= i <= 16)%nat -> exists f, msg_fields wkt_tables i = [f] /\ fd_number f = 1 /\ fd_presence f = false /\
    fd_is_list f = false /\ fd_is_map f = false /\ wrapped_kind i = fd_kind f /\ find_desc wkt_tables i 1 = Some f /\
    kind_msg (fd_kind f) = None /\ (forall e, fd_kind f <> KEnum e) /\ fd_default f = None.
  Proof.
    intros H. assert (A : (i = 8 \/ i = 9 \/ i = 10 \/ i = 11 \/ i = 12 \/ i = 13 \/ i = 14 \/ i = 15 \/ i = 16)%nat) by lia. clear H.
    repeat (destruct A as [A|A]); subst i; (eexists; split; [vm_compute; reflexivity|]; repeat split; try (vm_compute; reflexivity); vm_compute; discriminate).
  Qed.

  Lemma typed_comes_back w d x : w <> WAny -> wkt_of t d = Some w -> ok_msg wkt_tables x = true -> dm_desc x = wkt_desc w ->
    (msg_depth x <= 100)%nat -> bulk_msg x < 2 ^ 64 -> typed_safe E w x -> exists j x', typed_back w d x j x'.
  Proof.
    intros Hna Hw Hx Hd Hdp Hbk Hs. assert (Hm : msg_ok wkt_tables x) by (now apply ok_msg_iff). destruct w as [| | | | | | | |i]; cbn [typed_safe wkt_desc] in *; [congruence|..].
    - destruct Hs as (S1 & S2 & S3). destruct (time_back 1 x (or_introl eq_refl) Hm Hd) as (A & O1 & O2).
      eexists; exists (typed_time 1 (as_Z (typed_get x 1)) (as_Z (typed_get x 2))). split.
      + cbn [ser_typed]. rewrite S1. reflexivity.
      + cbn [carried de target_goal de_atom]. rewrite Hw. cbn [de_wkt_atom]. rewrite S2, S3, S1. reflexivity.
      + exact A.
      + apply typed_time_ok; auto.
      + reflexivity.
      + vm_compute. lia.
      + vm_compute. reflexivity.
      + discriminate.
    - destruct Hs as (S1 & S3). destruct (time_back 2 x (or_intror eq_refl) Hm Hd) as (A & O1 & O2).
      eexists; exists (typed_time 2 (as_Z (typed_get x 1)) (as_Z (typed_get x 2))). split.
      + cbn [ser_typed]. rewrite S1. reflexivity.
      + cbn [carried de target_goal de_atom]. rewrite Hw. cbn [de_wkt_atom]. rewrite S3, S1. reflexivity.
      + exact A.
      + apply typed_time_ok; auto.
      + reflexivity.
      + vm_compute. lia.
      + vm_compute. reflexivity.
      + discriminate.
    - destruct (struct_tree_back E t deny x Hd Hx Hs) as (ms & vs & B). exists (JObj ms), (wstruct vs). split.
      + cbn [ser_typed]. unfold ser_struct. apply (sb_ser _ _ _ _ _ _ B).
      + cbn [carried de target_goal de_obj]. rewrite Hw, (sb_de _ _ _ _ _ _ B). reflexivity.
      + apply (sb_agree _ _ _ _ _ _ B).
      + apply (sb_ok _ _ _ _ _ _ B).
      + apply (sb_zeros _ _ _ _ _ _ B).
      + pose proof (sb_depth _ _ _ _ _ _ B). lia.
      + pose proof (sb_bulk _ _ _ _ _ _ B). lia.
      + discriminate.
    - assert (Wm : wmsg (VMessage x)) by (unfold wmsg; rewrite ok_elem_msg; cbn [kind_msg]; rewrite Hd; exact Hx).
      destruct (value_tree_back E t deny (VMessage x) Wm Hs) as (j & v' & B). destruct (wmsg_inv _ (b_ok _ _ _ _ _ _ B)) as (x' & -> & Ed & Ok').
      exists j, x'. split.
      + exact (b_ser _ _ _ _ _ _ B).
      + pose proof (b_de _ _ _ _ _ _ B) as D. destruct (carried E j); cbn [de target_goal de_atom de_arr de_obj] in D |- *; rewrite Hw.
        1-6: cbn [de_wkt_atom]; match type of D with context [de_watom ?a] => destruct (de_watom a) end; try discriminate D; cbn [jbind] in *; injection D as ->; reflexivity.
        * destruct (de_wlist _ false); try discriminate D. cbn [jbind] in *. injection D as <-. reflexivity.
        * destruct (de_wstruct _ false); try discriminate D. cbn [jbind] in *. injection D as <-. reflexivity.
      + exact (b_agree _ _ _ _ _ _ B).
      + exact Ok'.
      + pose proof (b_zeros _ _ _ _ _ _ B) as Z. destruct x' as [d' fs']. destruct (wrap_fields 8 ltac:(lia)) as (f0 & _). exact (Z f0).
      + pose proof (b_depth _ _ _ _ _ _ B) as Z. destruct x as [d1 fs1]. destruct x' as [d' fs']. cbn [depth] in Z. apply le_S_n in Z. exact (Nat.le_trans _ _ _ Z Hdp).
      + pose proof (b_bulk _ _ _ _ _ _ B) as Z. rewrite !bulk_message in Z. lia.
      + reflexivity.
    - destruct (list_tree_back E t deny x Hd Hx Hs) as (js & vs & B). exists (JArr js), (wlist vs). split.
      + cbn [ser_typed]. unfold ser_list. apply (lb_ser _ _ _ _ _ _ B).
      + cbn [carried de target_goal de_arr]. rewrite Hw, (lb_de _ _ _ _ _ _ B). reflexivity.
      + apply (lb_agree _ _ _ _ _ _ B).
      + apply (lb_ok _ _ _ _ _ _ B).
      + apply (lb_zeros _ _ _ _ _ _ B).
      + pose proof (lb_depth _ _ _ _ _ _ B). lia.
      + pose proof (lb_bulk _ _ _ _ _ _ B). lia.
      + discriminate.
    - destruct Hs as [S1 S2]. assert (Fm : exists f, msg_fields wkt_tables 7 = [f] /\ fd_number f = 1 /\ fd_presence f = false /\
        fd_is_list f = true /\ fd_is_map f = false /\ fd_kind f = KString /\ find_desc wkt_tables 7 1 = Some f).
      { eexists. split; [vm_compute; reflexivity|]. repeat split; vm_compute; reflexivity. }
      destruct Fm as (f & F1 & F2 & F3 & F4 & F5 & F6 & F7). assert (F7' := F7). rewrite <- Hd in F7'.
      destruct (one_back 7 x f Hm Hd F1 F2 F3) as [A B]. pose proof (typed_get_ok x 1 f Hm F7') as Ok'.
      pose proof (typed_get_field x 1 f (proj1 (wkt_in _ _ _ F7'))) as T.
      unfold ok_field in Ok'. rewrite F4, F5 in Ok'. destruct (get_field_value wkt_tables x f) as [| | | | | | | | | |m|vs|kvs] eqn:Ev; try discriminate Ok'.
      2: { destruct (kind_msg (fd_kind f)); discriminate Ok'. }
      cbn [andb] in Ok'. rewrite F6 in Ok'.
      assert (Hps : exists ps, vs = map VString ps /\ Forall str_ok ps).
      { clear -Ok'. induction vs as [|v vs IH]; [exists []; auto|]. cbn [forallb] in Ok'. apply andb_true_iff in Ok'. destruct Ok' as [H1 H2].
        destruct (IH H2) as (ps & -> & Hp). destruct v as [| | | | | | |s| | |m| |]; try discriminate H1; [|destruct m; discriminate H1].
        exists (s :: ps). split; [reflexivity|]. constructor; [|exact Hp]. cbn [ok_elem sc_okb] in H1. apply andb_true_iff in H1. destruct H1 as [H1 H3].
        split; [now apply bytes_okb_ok|exact H3]. }
      destruct Hps as (ps & -> & Hp). assert (Mp : mask_paths x = ps).
      { unfold mask_paths. rewrite T. cbn [as_list]. rewrite map_map. cbn [val_bytes]. apply map_id. }
      rewrite Mp in *. destruct (mask_out [] ps) as [s|] eqn:Es; [|congruence].
      exists (JStr s), (DM 7 [(1, SVal (VList (map VString ps)))]). split.
      + cbn [ser_typed]. rewrite Mp, Es. reflexivity.
      + cbn [carried de target_goal de_atom]. rewrite Hw. cbn [de_wkt_atom]. rewrite (mask_back _ _ Es S2). reflexivity.
      + exact A.
      + now apply mask_msg_ok.
      + unfold zeros_kept_msg. cbn [dm_desc dm_fields forallb fst snd]. rewrite F7. unfold zero_kept. rewrite F3. cbn [orb andb].
        cbn [zeros_kept]. rewrite !andb_true_r. clear. induction ps; [reflexivity|]. cbn. assumption.
      + unfold msg_depth. cbn [dm_fields map snd depth_slot depth list_max fold_right]. rewrite map_map. cbn [depth].
        replace (list_max (map (fun _ : str => 0%nat) ps)) with 0%nat; [cbn; lia|]. clear. induction ps; [reflexivity|]. cbn. exact IHps.
      + destruct B as [B|B]; [lia|]. rewrite B in *. unfold fd_default_value. rewrite F4. vm_compute. reflexivity.
      + discriminate.
    - exists (JObj []), (new_msg 17). split.
      + reflexivity.
      + cbn [carried map de target_goal de_obj]. rewrite Hw. reflexivity.
      + unfold agree_msg. apply agree_message; [rewrite Hd; reflexivity| | |]; intros n f Hf; rewrite Hd in Hf; destruct (wkt_in _ _ _ Hf) as (_ & Hin & _); vm_compute in Hin; contradiction.
      + vm_compute. reflexivity.
      + reflexivity.
      + vm_compute. lia.
      + vm_compute. reflexivity.
      + discriminate.
    - pose proof (wkt_wrap_range _ _ _ Hw) as Hi. destruct (wrap_fields i Hi) as (f & F1 & F2 & F3 & F4 & F5 & F6 & F7 & F8 & F9 & F10).
      assert (F7' := F7). rewrite <- Hd in F7'. destruct (one_back i x f Hm Hd F1 F2 F3) as [A B]. pose proof (typed_get_ok x 1 f Hm F7') as Ok'.
      pose proof (typed_get_field x 1 f (proj1 (wkt_in _ _ _ F7'))) as T. rewrite T in Hs.
      set (v := get_field_value wkt_tables x f) in *.
      assert (Osc : sc_okb (fd_kind f) v = true /\ match v with VEnum _ | VMessage _ | VList _ | VMap _ => False | _ => True end).
      { unfold ok_field in Ok'. rewrite F4, F5 in Ok'. destruct v as [| | | | | | | | | |m|vs|kvs]; try (split; [exact Ok'|exact Logic.I]).
        - exfalso. cbn [negb andb ok_elem] in Ok'. destruct (fd_kind f) eqn:Ek; try discriminate Ok'. eapply F9; reflexivity.
        - exfalso. destruct m. rewrite ok_elem_msg, F8 in Ok'. discriminate Ok'.
        - discriminate Ok'.
        - exfalso. destruct (kind_msg (fd_kind f)); discriminate Ok'. }
      destruct Osc as [Osc Osv].
      assert (Bk : scalar_backb E t v (fd_kind f) = true) by (destruct v; try reflexivity; try tauto; cbn [scalar_backb]; tauto).
      destruct (scalar_back E t o deny) with (v := v) (k := fd_kind f) as (j & J1 & J2 & J3 & J4); auto.
      { intros e z nm Hk. destruct (F9 e Hk). }
      assert (Nn : carried E j <> JNull).
      { intros Hn. specialize (J4 Hn). unfold null_kind in J4. destruct (fd_kind f) eqn:Ek; try discriminate J4. eapply F9; reflexivity. }
      exists j, (DM i [(1, SVal v)]). split.
      + cbn [ser_typed]. rewrite T. fold v. destruct v; try contradiction; cbn [ser_wrapped ser_scalar] in *; try (injection J1 as <-; reflexivity).
        * destruct Hs as [Hs _]. unfold ser_f32 in J1. rewrite Hs in J1. injection J1 as <-. reflexivity.
        * destruct Hs as [Hs _]. unfold ser_f64 in J1. rewrite Hs in J1. injection J1 as <-. reflexivity.
      + destruct (carried E j) eqn:Ec; try discriminate J3; try contradiction; cbn [de target_goal de_atom]; rewrite Hw; cbn [de_wkt_atom]; rewrite F6, J2; reflexivity.
      + exact A.
      + apply (typed_one i 1 v f); auto. lia.
      + unfold zeros_kept_msg. cbn [dm_desc dm_fields forallb fst snd]. rewrite F7, andb_true_r. unfold zero_kept, fd_default_value. rewrite F3, F4, F5, F10.
        cbn [orb]. destruct v; try contradiction; try reflexivity.
        * cbn [zeros_kept]. rewrite andb_true_r. destruct (kind_default wkt_tables (fd_kind f)) eqn:Ekd; try reflexivity.
          assert (Z0 : bits0 = 0) by (destruct (fd_kind f); try discriminate Ekd; cbn in Ekd; congruence). subst bits0.
          destruct Hs as (_ & _ & Hz). cbn [sc_okb] in Osc. apply zero32; [destruct (fd_kind f); try discriminate Osc; exact Osc|exact Hz].
        * cbn [zeros_kept]. rewrite andb_true_r. destruct (kind_default wkt_tables (fd_kind f)) eqn:Ekd; try reflexivity.
          assert (Z0 : bits0 = 0) by (destruct (fd_kind f); try discriminate Ekd; cbn in Ekd; congruence). subst bits0.
          destruct Hs as (_ & _ & Hz). cbn [sc_okb] in Osc. apply zero64; [destruct (fd_kind f); try discriminate Osc; exact Osc|exact Hz].
      + unfold msg_depth. cbn [dm_fields map snd depth_slot list_max fold_right]. destruct v; try contradiction; cbn; lia.
      + destruct B as [B|B]; [lia|]. rewrite B. unfold fd_default_value. rewrite F4, F5, F10.
        destruct (fd_kind f); try (vm_compute; reflexivity); try discriminate F8.
      + contradiction.
  Qed.
End Typed.
