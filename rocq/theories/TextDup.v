(** A singular field is given at most once in an accepted text. *)
From Coq Require Import String.
From Verif Require Import Base BaseProofs Wire WireProofs LoopProofs Unknown UnknownProofs Value Descr
  Fields Codec DescrOk DescrProofs FieldsProofs LenProofs MergeProofs RoundSpec RoundProofs EncBytes History
  Float TextLex TextFormat TextParse TextLexProofs TextTokens TextSafe.
Open Scope N_scope.

(** the field or extension named at the head of the tokens; none for an
    expanded Any *)
Definition named (t : tables) (d : nat) (ts : list tok) : option fdl :=
  match field_name ts with
  | POk (FIdent s) _ => find_field t d s
  | POk (FExt s) _ => get_ext_by_full t d s
  | _ => None
  end.
(** not a list, not a map *)
Definition singular (f : fdl) : Prop := fd_is_list f = false /\ fd_is_map f = false.
(** the fields read one after the other into one message: which one is named,
    and the message after it *)
Inductive run (t : tables) (pv : kind -> list tok -> pr value)
  : dynmsg -> list tok -> list (option fdl * dynmsg) -> dynmsg -> list tok -> Prop :=
| run_nil m ts : run t pv m ts [] m ts
| run_cons m ts m1 ts1 steps m2 ts2 :
    parse_field t pv m ts = MOk m1 ts1 -> run t pv m1 ts1 steps m2 ts2 ->
    run t pv m ts ((named t (dm_desc m) ts, m1) :: steps) m2 ts2.

Lemma fields_loop_run t pv n : forall m ts m' r, fields_loop n (parse_field t pv) m ts = MOk m' r ->
  exists steps, run t pv m ts steps m' r /\ r = [].
Proof.
  induction n as [|n IH]; intros m ts m' r; cbn [fields_loop]; [discriminate|].
  assert (F : match parse_field t pv m ts with MOk m1 ts1 => fields_loop n (parse_field t pv) m1 ts1 | x => x end = MOk m' r ->
    exists steps, run t pv m ts steps m' r /\ r = []).
  { destruct (parse_field t pv m ts) as [m1 ts1|e m1| |] eqn:E; try discriminate. intros H.
    destruct (IH _ _ _ _ H) as (steps & H1 & H2). exists ((named t (dm_desc m) ts, m1) :: steps). split; [|exact H2].
    econstructor; eassumption. }
  destruct ts as [|k ts]; [intros [= <- <-]; exists []; split; [constructor|reflexivity]|].
  destruct k; exact F.
Qed.
Lemma message_loop_run t pv angle n : forall m ts m' r, message_loop n (parse_field t pv) angle m ts = MOk m' r ->
  exists steps k, run t pv m ts steps m' (k :: r) /\ tok_is_close angle k = true.
Proof.
  induction n as [|n IH]; intros m ts m' r; cbn [message_loop]; [discriminate|].
  assert (F : match parse_field t pv m ts with MOk m1 ts1 => message_loop n (parse_field t pv) angle m1 ts1 | x => x end = MOk m' r ->
    exists steps k, run t pv m ts steps m' (k :: r) /\ tok_is_close angle k = true).
  { destruct (parse_field t pv m ts) as [m1 ts1|e m1| |] eqn:E; try discriminate. intros H.
    destruct (IH _ _ _ _ H) as (steps & k & H1 & H2). exists ((named t (dm_desc m) ts, m1) :: steps), k. split; [|exact H2].
    econstructor; eassumption. }
  destruct ts as [|k ts]; [discriminate|].
  assert (G : (if tok_is_close angle k then MOk m ts else unexpected_in m (k :: ts)) = MOk m' r ->
    exists steps k0, run t pv m (k :: ts) steps m' (k0 :: r) /\ tok_is_close angle k0 = true).
  { destruct (tok_is_close angle k) eqn:E.
    - intros [= <- <-]. exists [], k. split; [constructor|exact E].
    - unfold unexpected_in. destruct k; discriminate. }
  destruct k; first [exact F | exact G].
Qed.

Section Dup.
  Variable t : tables.
  Hypothesis Hw : wf t.
  Let Ht : tables_ok t := proj1 Hw.
  Hypothesis Hx : forall d, NoDup (map fd_number (msg_exts t d)).
  (** repeated fields are in no oneof *)
  Hypothesis Ho : forall d n f, get_field t d n = Some f -> is_repeated f = true -> fd_oneof f = None.
  Variable pv : kind -> list tok -> pr value.

  Lemma insert_all_shape m put : forall vs kvs ts m' r, insert_all t put kvs vs ts = MOk m' r ->
    (forall kvs, exists v, put kvs = with_fields m v) -> exists kvs', m' = put kvs'.
  Proof.
    induction vs as [|v vs IH]; intros kvs ts m' r; cbn [insert_all].
    - intros [= <- <-] _. exists kvs. reflexivity.
    - destruct (unpack t v); try discriminate. intros H Hp. eapply IH; eassumption.
  Qed.

  (** one step of the loop, in a message that is not an Any *)
  Lemma step_inv m ts m1 ts1 : full_name t (dm_desc m) <> any_name -> parse_field t pv m ts = MOk m1 ts1 ->
    exists f, named t (dm_desc m) ts = Some f /\ find_desc t (dm_desc m) (fd_number f) = Some f /\
      (singular f /\ has_field t m f = false /\
        (forall nums k, fd_oneof f = Some nums -> In k nums -> has_field_by_number t m k = false) /\
        (exists v, m1 = with_fields m (fs_set f v (dm_fields m)))
       \/ ~ singular f /\ is_repeated f = true /\ (exists v, m1 = with_fields m (fs_put f v (fs_get_mut t f (dm_fields m))))).
  Proof.
    intros Hn. unfold parse_field, named.
    destruct (field_name ts) as [nm r|e| |]; cbn [mbind]; try discriminate.
    destruct (field_sep r) as [u r1|e| |]; cbn [mbind]; try discriminate.
    assert (V : forall f, find_desc t (dm_desc m) (fd_number f) = Some f ->
      field_end (field_value_in t pv m f r1) = MOk m1 ts1 ->
      singular f /\ has_field t m f = false /\
        (forall nums k, fd_oneof f = Some nums -> In k nums -> has_field_by_number t m k = false) /\
        (exists v, m1 = with_fields m (fs_set f v (dm_fields m)))
       \/ ~ singular f /\ is_repeated f = true /\ (exists v, m1 = with_fields m (fs_put f v (fs_get_mut t f (dm_fields m))))).
    { intros f Hfd H. assert (exists ts', field_value_in t pv m f r1 = MOk m1 ts') as [ts' E].
      { destruct (field_value_in t pv m f r1) as [m0 ts0|e0 m0| |]; cbn [field_end] in H; try discriminate.
        destruct ts0 as [|k0 ts0]; [exists []; injection H as <- <-; reflexivity|].
        destruct k0; try discriminate; injection H as <- <-; eexists; reflexivity. }
      clear H. unfold field_value_in in E. unfold singular.
      destruct (fd_is_list f) eqn:El.
      - right. split; [intros [? ?]; discriminate|]. split; [unfold fd_is_list in El; apply andb_true_iff in El; exact (proj1 El)|].
        destruct (repeated_value pv (fd_kind f) r1) as [v rr|e| |]; cbn [mbind] in E; try discriminate.
        destruct (fs_get t f (fs_get_mut t f (dm_fields m))); try discriminate. injection E as <- _. eexists. reflexivity.
      - destruct (fd_is_map f) eqn:Em.
        + right. split; [intros [? ?]; discriminate|]. split.
          { assert (fd_is_map f = true -> is_repeated f = true) as M; [|exact (M Em)].
            destruct (is_repeated f) eqn:R; [auto|]. unfold find_desc in Hfd.
            destruct (get_field t (dm_desc m) (fd_number f)) as [g|] eqn:Eg.
            - injection Hfd as ->. rewrite (get_field_map t Hw _ _ _ Eg R). discriminate.
            - destruct (get_ext_inv _ _ _ _ Ht Hfd) as (_ & Hin & _). destruct (msg_exts_inv _ _ _ Ht Hin) as (mm & x & e & _ & _ & _ & _ & -> & _).
              unfold is_repeated in R. cbn in R |- *. unfold is_map_kind. rewrite R. discriminate. }
          destruct (repeated_value pv (fd_kind f) r1) as [v rr|e| |]; cbn [mbind] in E; try discriminate.
          destruct (fs_get t f (fs_get_mut t f (dm_fields m))); try discriminate.
          apply insert_all_shape with (m := m) in E; [|intros kvs0; eexists; reflexivity]. destruct E as [kvs' ->]. eexists. reflexivity.
        + left. split; [auto|]. destruct (pv (fd_kind f) r1) as [v rr|e| |]; cbn [mbind] in E; try discriminate.
          destruct (fs_has t f (dm_fields m)) eqn:Eh; [discriminate|]. split; [exact Eh|].
          destruct (fd_oneof f) as [nums|] eqn:Eo.
          * destruct (existsb (has_field_by_number t m) nums) eqn:Ex; [discriminate|]. injection E as <- _. split; [|eexists; reflexivity].
            intros nums' k [= <-] Hk. destruct (has_field_by_number t m k) eqn:Ek; [|reflexivity].
            assert (existsb (has_field_by_number t m) nums = true) by (apply existsb_exists; exists k; auto). congruence.
          * injection E as <- _. split; [discriminate|eexists; reflexivity]. }
    destruct nm as [s|s|a b].
    - destruct (find_field t (dm_desc m) s) as [f|] eqn:Ef; [|discriminate]. intros H.
      pose proof (find_field_desc t Hw _ _ _ Ef) as Hfd. exists f. split; [reflexivity|]. split; [exact Hfd|]. exact (V f Hfd H).
    - destruct (get_ext_by_full t (dm_desc m) s) as [f|] eqn:Ef; [|discriminate]. intros H.
      pose proof (get_ext_full_desc t Hw Hx _ _ _ Ef) as Hfd. exists f. split; [reflexivity|]. split; [exact Hfd|]. exact (V f Hfd H).
    - intros H. exfalso. unfold any_in in H. destruct (find_msg t b); [|discriminate].
      destruct (pv (KMessage n) r1) as [v rr|e| |]; cbn [mbind field_end] in H; try discriminate.
      destruct v; cbn [field_end] in H; try discriminate. destruct (enc_msg t m0); cbn [field_end] in H; try discriminate.
      destruct (bytes_eqb (full_name t (dm_desc m)) any_name) eqn:En; [apply bytes_eqb_eq in En; contradiction|discriminate].
  Qed.

  Lemma step_desc m ts m1 ts1 : full_name t (dm_desc m) <> any_name -> parse_field t pv m ts = MOk m1 ts1 -> dm_desc m1 = dm_desc m.
  Proof.
    intros Hn H. destruct (step_inv _ _ _ _ Hn H) as (f & _ & _ & [(_ & _ & _ & v & ->)|(_ & _ & v & ->)]); reflexivity.
  Qed.

  Lemma put_mut_get f v fs k : bt_get k (fs_put f v (fs_get_mut t f fs)) =
    if k =? fd_number f then Some (SVal v) else if siblingb f k then None else bt_get k fs.
  Proof.
    unfold fs_put. destruct (N.eqb_spec k (fd_number f)) as [->|Hne]; [apply bt_get_set_same|].
    rewrite bt_get_set_other by exact Hne. rewrite get_mut_get. destruct (N.eqb_spec k (fd_number f)); [contradiction|reflexivity].
  Qed.

  (** a field that is set stays set, and neither it nor a sibling in its oneof
      can be named *)
  Lemma step_keeps m ts m1 ts1 f : full_name t (dm_desc m) <> any_name -> parse_field t pv m ts = MOk m1 ts1 ->
    singular f -> find_desc t (dm_desc m) (fd_number f) = Some f -> has_field t m f = true ->
    has_field t m1 f = true /\
    forall g, named t (dm_desc m) ts = Some g -> fd_number g <> fd_number f /\ ~ (exists nums, fd_oneof g = Some nums /\ In (fd_number f) nums).
  Proof.
    intros Hn H Sf Hfd Hh. destruct (step_inv _ _ _ _ Hn H) as (g & Hg & Hgd & C). rewrite Hg.
    assert (Same : fd_number g = fd_number f -> g = f) by (intros E; rewrite E in Hgd; congruence).
    destruct C as [(Sg & Hhg & Hone & v & ->)|(Sg & Rg & v & ->)].
    - assert (Hne : fd_number g <> fd_number f) by (intros E; rewrite (Same E) in Hhg; congruence).
      assert (Hsib : ~ (exists nums, fd_oneof g = Some nums /\ In (fd_number f) nums)).
      { intros (nums & Eo & Hin). pose proof (Hone _ _ Eo Hin) as Hk. unfold has_field_by_number in Hk.
        assert (Eg : get_field t (dm_desc m) (fd_number g) = Some g).
        { unfold find_desc in Hgd. destruct (get_field t (dm_desc m) (fd_number g)) eqn:Eg; [congruence|].
          rewrite (get_ext_oneof _ _ _ _ Ht Hgd) in Eo. discriminate. }
        destruct (oneof_siblings _ _ _ _ _ _ Ht Eg Eo Hin) as (g' & Eg' & _). unfold find_desc in Hfd. rewrite Eg' in Hfd.
        injection Hfd as ->. rewrite Eg' in Hk. congruence. }
      split; [|intros g0 [= <-]; auto].
      unfold has_field in *. rewrite <- Hh. apply has_slot. cbn [with_fields dm_fields]. rewrite set_get.
      destruct (N.eqb_spec (fd_number f) (fd_number g)) as [E|_]; [congruence|].
      destruct (siblingb g (fd_number f)) eqn:Es; [|reflexivity]. exfalso. apply Hsib.
      unfold siblingb in Es. destruct (fd_oneof g) as [nums|]; [|discriminate]. exists nums. split; [reflexivity|].
      apply existsb_exists in Es. destruct Es as (x & Hin & Ex). apply andb_true_iff in Ex. destruct Ex as [Ex _].
      apply N.eqb_eq in Ex. subst x. exact Hin.
    - assert (Hne : fd_number g <> fd_number f) by (intros E; rewrite (Same E) in Sg; contradiction).
      assert (Eo : fd_oneof g = None).
      { unfold find_desc in Hgd. destruct (get_field t (dm_desc m) (fd_number g)) as [g'|] eqn:Eg.
        - injection Hgd as ->. eapply Ho; eassumption.
        - exact (get_ext_oneof _ _ _ _ Ht Hgd). }
      split.
      + unfold has_field in *. rewrite <- Hh. apply has_slot. cbn [with_fields dm_fields]. rewrite put_mut_get.
        destruct (N.eqb_spec (fd_number f) (fd_number g)) as [E|_]; [congruence|].
        unfold siblingb. rewrite Eo. reflexivity.
      + intros g0 [= <-]. split; [exact Hne|]. intros (nums & E & _). congruence.
  Qed.
  Lemma run_keeps m ts steps m2 ts2 : run t pv m ts steps m2 ts2 -> full_name t (dm_desc m) <> any_name -> forall f,
    singular f -> find_desc t (dm_desc m) (fd_number f) = Some f -> has_field t m f = true ->
    has_field t m2 f = true /\
    forall g mg, In (Some g, mg) steps -> fd_number g <> fd_number f /\ ~ (exists nums, fd_oneof g = Some nums /\ In (fd_number f) nums).
  Proof.
    induction 1 as [m ts|m ts m1 ts1 steps m2 ts2 Hp Hr IH]; intros Hn f Sf Hfd Hh.
    - split; [exact Hh|intros g mg []].
    - destruct (step_keeps _ _ _ _ f Hn Hp Sf Hfd Hh) as [K1 K2]. pose proof (step_desc _ _ _ _ Hn Hp) as Ed.
      rewrite <- Ed in Hn, Hfd. destruct (IH Hn f Sf Hfd K1) as [L1 L2]. split; [exact L1|].
      intros g mg [[= E _]|Hin]; [apply K2; exact E|eapply L2; exact Hin].
  Qed.
  Lemma run_unique m ts steps m2 ts2 : run t pv m ts steps m2 ts2 -> full_name t (dm_desc m) <> any_name ->
    forall i f mi, nth_error steps i = Some (Some f, mi) -> singular f -> fd_presence f = true \/ has_field t mi f = true ->
    has_field t m2 f = true /\
    forall j g mj, (i < j)%nat -> nth_error steps j = Some (Some g, mj) ->
      fd_number g <> fd_number f /\ ~ (exists nums, fd_oneof g = Some nums /\ In (fd_number f) nums).
  Proof.
    induction 1 as [m ts|m ts m1 ts1 steps m2 ts2 Hp Hr IH]; intros Hn i f mi Hi Sf Hpres; [destruct i; discriminate|].
    pose proof (step_desc _ _ _ _ Hn Hp) as Ed.
    destruct i as [|i]; cbn [nth_error] in Hi.
    - injection Hi as Hf <-. destruct (step_inv _ _ _ _ Hn Hp) as (g & Hg & Hgd & C).
      assert (g = f) by congruence. subst g. destruct C as [(_ & _ & _ & v & Hv)|(C & _)]; [|contradiction].
      assert (H1 : has_field t m1 f = true).
      { destruct Hpres as [Hpr|]; [|assumption]. subst m1. unfold has_field, fs_has, fs_get_value. cbn [with_fields dm_fields].
        rewrite set_get, N.eqb_refl. unfold fd_has. rewrite Hpr. reflexivity. }
      rewrite <- Ed in Hn, Hgd. destruct (run_keeps _ _ _ _ _ Hr Hn f Sf Hgd H1) as [K1 K2]. split; [exact K1|].
      intros j g mj Hj Hjg. destruct j as [|j]; [lia|]. cbn [nth_error] in Hjg. eapply K2, nth_error_In, Hjg.
    - rewrite <- Ed in Hn. destruct (IH Hn i f mi Hi Sf Hpres) as [K1 K2]. split; [exact K1|].
      intros j g mj Hj Hjg. destruct j as [|j]; [lia|]. cbn [nth_error] in Hjg. eapply K2; [|exact Hjg]. lia.
  Qed.
End Dup.
