(** The message read back from text, when some of the messages inside were
    written in another form: it is well formed and carries the same data. *)
From Coq Require Import String.
From Verif Require Import Base BaseProofs Wire WireProofs Unknown UnknownProofs Value Descr Fields Codec DescrOk DescrProofs FieldsProofs
  MergeProofs RoundSpec RoundProofs RoundMain RoundSame ItemRound TextFormat TextRound Json JsonRound.
Open Scope list_scope.
Open Scope N_scope.

Lemma keys_nodup_map (g : value -> value) l : keys_nodupb (map (fun kv => (fst kv, g (snd kv))) l) = keys_nodupb l.
Proof.
  induction l as [|[k v] l IH]; [reflexivity|]. cbn [map keys_nodupb fst snd]. rewrite IH. f_equal.
  try f_equal. clear IH. induction l as [|[k' v'] l IH]; [reflexivity|]. cbn in *. now rewrite IH.
Qed.

Section RenewAny.
  Variable t : tables.
  Hypothesis Hwf : wf t.
  Let Ht : tables_ok t := proj1 Hwf.
  Variables full idx : bool.
  Hypothesis Hop : oneofs_present t.
  Hypothesis Hdp : defaults_plain t.
  Variable ran : dynmsg -> option dynmsg.
  Variable safe : dynmsg -> Prop.
  Hypothesis Hran : forall m m', ok_msg t m = true -> safe m -> ran m = Some m' ->
    dm_desc m' = dm_desc m /\ ok_msg t m' = true /\ jagree t (VMessage m) (VMessage m').
  Notation renew := (renew t full idx ran).
  Notation renew_msg := (renew_msg t full idx ran).
  Notation renewed := (renewed t full idx ran).
  Notation known := (known t full idx).

  Lemma put_items_inv g its : forall fs k s, bt_get k (fold_left (put_item g) its fs) = Some s ->
    bt_get k fs = Some s \/ exists it f v, In it its /\ fitem it = Some (f, v) /\ fd_number f = k /\ s = SVal (g v).
  Proof.
    induction its as [|i its IH]; intros fs k s H; cbn [fold_left] in H; [now left|].
    destruct (IH _ _ _ H) as [H1|(it & f & v & H1 & H2 & H3 & H4)].
    - unfold put_item in H1. destruct (fitem i) as [[f v]|] eqn:Ei; [|now left].
      destruct (N.eq_dec k (fd_number f)) as [->|Hne].
      + rewrite bt_get_set_same in H1. injection H1 as <-. right. exists i, f, v. split; [left; reflexivity|auto].
      + rewrite bt_get_set_other in H1 by congruence. now left.
    - right. exists it, f, v. split; [right; exact H1|auto].
  Qed.
  Lemma rebuild_inv g m k s : msg_ok t m -> bt_get k (rebuild g (known (dm_desc m) (dm_fields m))) = Some s ->
    exists it f v, is_known t full (dm_desc m) (dm_fields m) it f v /\ fd_number f = k /\ s = SVal (g v).
  Proof.
    intros Hm H. destruct (put_items_inv _ _ _ _ _ H) as [H1|(it & f & v & H1 & H2 & H3 & H4)]; [discriminate|].
    destruct (known_inv t Hwf full idx m it Hm H1) as (f' & v' & K). pose proof (ik_item _ _ _ _ _ _ _ K) as E2. rewrite H2 in E2. injection E2 as <- <-.
    exists it, f, v. auto.
  Qed.

  Lemma default_same f : fdl_ok t f -> fd_presence f = false -> jagree t (fd_default_value t f) (fd_default_value t f).
  Proof.
    intros Hf Hp. unfold fd_default_value. destruct (fd_is_list f) eqn:El; [apply jagree_list; constructor|].
    destruct (fd_is_map f) eqn:Em; [apply jagree_map; [reflexivity|intros k; reflexivity|discriminate]|].
    destruct (fd_default f) as [v|] eqn:Ed.
    - pose proof (fo_default _ _ Hf _ Ed) as Hs. destruct v; try (apply jagree_scalar; reflexivity); destruct (fd_kind f); discriminate Hs.
    - destruct (fd_kind f) as [| | | | | | | | | | | | | | | i | i |] eqn:Ek; try (apply jagree_scalar; reflexivity);
      (rewrite (fo_msg _ _ Hf) in Hp; [discriminate|rewrite Ek; reflexivity|apply not_repeated; assumption]).
  Qed.

  Definition stays (v : value) : Prop := each_message safe v ->
    (forall k, ok_elem t v k = true -> ok_elem t (renew v) k = true) /\
    (forall f, fdl_ok t f -> ok_field t f v = true -> ok_field t f (renew v) = true) /\
    ((exists f, fdl_ok t f /\ ok_field t f v = true) \/ (exists k, ok_elem t v k = true) ->
     zeros_shown t full v = true -> jagree t v (renew v)).

  Lemma renew_msg_ok m : msg_ok t m -> Forall (fun kv => slot_all stays (snd kv)) (dm_fields m) -> each_message safe (VMessage m) ->
    msg_ok t (renew_msg m).
  Proof.
    intros Hm HI Hs. unfold ItemRound.renew_msg. constructor; cbn [dm_desc dm_fields].
    - apply (mo_desc _ _ Hm).
    - apply put_items_sorted. constructor.
    - intros n g v nums k w B1 Hg Ho Hin Hne B2.
      destruct (rebuild_inv _ _ _ _ Hm B1) as (it1 & f1 & v1 & K1 & N1 & _).
      destruct (rebuild_inv _ _ _ _ Hm B2) as (it2 & f2 & v2 & K2 & N2 & _). subst n k.
      apply (known_compat t Hwf full m it1 it2 f1 v1 f2 v2 Hop Hm K1 K2).
      assert (f1 = g). { pose proof (ik_desc _ _ _ _ _ _ _ K1) as D. unfold find_desc in D. rewrite Hg in D. congruence. }
      subst g. exists nums. auto.
    - intros n s B. destruct (rebuild_inv _ _ _ _ Hm B) as (it & f & v & K & <- & ->). unfold ok_slot. cbn [fst snd].
      pose proof (ik_desc _ _ _ _ _ _ _ K) as Hf. rewrite Hf. pose proof (find_desc_ok _ _ _ _ Ht Hf) as Hfo.
      pose proof (known_ok t Hwf full m it f v Hm K) as Hok. pose proof (ik_val _ _ _ _ _ _ _ K) as Ev. unfold fs_get, fs_get_value in Ev.
      destruct (bt_get (fd_number f) (dm_fields m)) as [[|x|us]|] eqn:Eb.
      2:{ subst x. rewrite Forall_forall in HI. specialize (HI _ (bt_get_In _ _ _ Eb)). cbn in HI.
          destruct m as [d fs]. cbn [each_message dm_fields] in *. destruct Hs as [_ Hs]. rewrite all_and, Forall_forall in Hs.
          specialize (Hs _ (bt_get_In _ _ _ Eb)). cbn [snd] in Hs. now apply HI. }
      all: assert (Hd : renew v = v); [|now rewrite Hd].
      all: subst v; destruct (ik_why _ _ _ _ _ _ _ K) as [W|(W1 & W2 & W3)];
        [unfold fs_has, fs_get_value in W; rewrite Eb in W; discriminate|apply renew_default; [exact Hfo|exact W2]].
  Qed.

  Lemma renew_msg_agrees m : msg_ok t m -> Forall (fun kv => slot_all stays (snd kv)) (dm_fields m) -> each_message safe (VMessage m) ->
    zeros_shown t full (VMessage m) = true -> jagree t (VMessage m) (VMessage (renew_msg m)).
  Proof.
    intros Hm HI Hs Hz.
    assert (Z : forall k v, bt_get k (dm_fields m) = Some (SVal v) -> shown t full (dm_desc m) k v = true /\ zeros_shown t full v = true).
    { intros k v Hb. destruct m as [d fs]. cbn [zeros_shown dm_fields dm_desc] in *. rewrite forallb_forall in Hz.
      specialize (Hz _ (bt_get_In _ _ _ Hb)). cbn [fst snd] in Hz. now apply andb_true_iff in Hz. }
    apply (jagree_rebuilt t (JOpt true false false (negb full)) Hwf Hdp); [exact Hm|reflexivity| |].
    - intros f Hf. unfold shows. cbn [j_skip_default]. rewrite negb_involutive. unfold ItemRound.renew_msg. cbn [dm_fields].
      rewrite (rebuild_get t Hwf full idx renew m f Hm Hf).
      destruct (_ || _) eqn:Ew; [|reflexivity]. eexists. split; [reflexivity|].
      pose proof (find_desc_ok _ _ _ _ Ht Hf) as Hfo.
      unfold fs_has, fs_get, fs_get_value in *. destruct (bt_get (fd_number f) (dm_fields m)) as [[|x|us]|] eqn:Eb.
      2:{ pose proof (mo_slots _ _ Hm _ _ Eb) as S0. cbn in S0. rewrite Hf in S0.
          rewrite Forall_forall in HI. specialize (HI _ (bt_get_In _ _ _ Eb)). cbn in HI.
          assert (Hx : each_message safe x).
          { destruct m as [d fs]. cbn [each_message dm_fields] in *. destruct Hs as [_ Hs]. rewrite all_and, Forall_forall in Hs.
            exact (Hs _ (bt_get_In _ _ _ Eb)). }
          apply (HI Hx); [left; exists f; auto|apply (Z _ _ Eb)]. }
      all: cbn [orb] in Ew; rewrite !andb_true_iff, negb_true_iff in Ew; destruct Ew as [[_ Hp] Hg].
      all: assert (Eg : get_field t (dm_desc m) (fd_number f) = Some f)
        by (unfold find_desc in Hf; destruct (get_field t (dm_desc m) (fd_number f)); [exact Hf|discriminate Hg]).
      all: rewrite renew_default by assumption; apply default_same; assumption.
    - intros k v f Hb _. cbn [j_skip_default]. rewrite negb_involutive. apply (Z _ _ Hb).
  Qed.

  Lemma all_stay v : stays v.
  Proof.
    induction v as [b|z|z|n|n|n|n|s|s|z|d fs IH|vs IH|kvs IH] using value_ind'; intros Hs;
      try (split; [auto|split; [auto|intros _ _; apply jagree_scalar; reflexivity]]).
    - assert (M : ok_msg t (DM d fs) = true ->
        dm_desc (renewed (DM d fs)) = d /\ ok_msg t (renewed (DM d fs)) = true /\
        (zeros_shown t full (VMessage (DM d fs)) = true -> jagree t (VMessage (DM d fs)) (VMessage (renewed (DM d fs))))).
      { intros Hm. unfold ItemRound.renewed. destruct (ran (DM d fs)) as [m'|] eqn:Er.
        - destruct (Hran _ _ Hm (proj1 Hs) Er) as (R1 & R2 & R3). auto.
        - apply ok_msg_iff in Hm. split; [reflexivity|]. split; [apply ok_msg_iff; now apply renew_msg_ok|]. intros Hz. now apply renew_msg_agrees. }
      rewrite renew_message by assumption.
      assert (El : forall k, ok_elem t (VMessage (DM d fs)) k = true -> ok_elem t (VMessage (renewed (DM d fs))) k = true).
      { intros k Hk. rewrite ok_elem_msg in *. destruct (kind_msg k); [|discriminate]. apply andb_true_iff in Hk. destruct Hk as [H1 H2].
        destruct (M H2) as (M1 & M2 & _). cbn [dm_desc] in H1. rewrite M2, M1, H1. reflexivity. }
      split; [exact El|]. split.
      + intros f Hf Hok. rewrite ok_field_plain in * by reflexivity. rewrite !andb_true_iff in *. destruct Hok as [H1 H2]. split; [exact H1|]. apply El, H2.
      + intros Hok Hz. assert (exists k, ok_elem t (VMessage (DM d fs)) k = true) as [k Hk].
        { destruct Hok as [(f & Hf & Hok)|Hok]; [|exact Hok]. rewrite ok_field_plain in Hok by reflexivity.
          rewrite !andb_true_iff in Hok. eexists. apply Hok. }
        rewrite ok_elem_msg in Hk. destruct (kind_msg k); [|discriminate]. apply andb_true_iff in Hk. apply M; [apply Hk|exact Hz].
    - cbn [each_message] in Hs. rewrite all_and in Hs. rewrite Forall_forall in Hs, IH.
      split; [intros k Hk; discriminate Hk|]. split.
      + intros f Hf Hok. cbn [ItemRound.renew ok_field] in *. apply andb_true_iff in Hok. destruct Hok as [H1 H2]. rewrite H1. cbn [andb].
        rewrite forallb_forall in *. intros x Hx. apply in_map_iff in Hx. destruct Hx as (y & <- & Hy). apply (IH _ Hy (Hs _ Hy)). auto.
      + intros [(f & Hf & Hok)|(k & Hk)] Hz; [|discriminate Hk]. cbn in Hok. apply andb_true_iff in Hok. destruct Hok as [_ Hok].
        cbn [ItemRound.renew]. apply jagree_list. cbn [zeros_shown] in Hz. rewrite forallb_forall in Hok, Hz.
        revert Hs Hok Hz IH. induction vs as [|v vs IHl]; intros Hs Hok Hz IH; [constructor|]. cbn [map]. constructor.
        * apply IH; [left; reflexivity|apply Hs; left; reflexivity|right; exists (fd_kind f); apply Hok; left; reflexivity|apply Hz; left; reflexivity].
        * apply IHl; intros; [apply Hs|apply Hok|apply Hz|apply IH]; right; assumption.
    - cbn [each_message] in Hs. rewrite all_and in Hs. rewrite Forall_forall in Hs, IH.
      split; [intros k Hk; discriminate Hk|]. split.
      + intros f Hf Hok. cbn [ItemRound.renew ok_field] in *. destruct (kind_msg (fd_kind f)) as [e|]; [|discriminate]. destruct (fd_is_map f); [|discriminate].
        destruct (entry_key t e) as [kf|]; [|discriminate]. destruct (entry_value t e) as [vf|]; [|discriminate].
        apply andb_true_iff in Hok. destruct Hok as [H1 H2]. rewrite keys_nodup_map, H1. cbn [andb].
        rewrite forallb_forall in *. intros x Hx. apply in_map_iff in Hx. destruct Hx as (y & <- & Hy). cbn [fst snd].
        specialize (H2 _ Hy). apply andb_true_iff in H2. destruct H2 as [H2 H3]. rewrite H2. cbn [andb]. apply (IH _ Hy (Hs _ Hy)). exact H3.
      + intros [(f & Hf & Hok)|(k & Hk)] Hz; [|discriminate Hk]. cbn in Hok.
        destruct (kind_msg (fd_kind f)) as [e|]; [|discriminate]. destruct (fd_is_map f); [|discriminate].
        destruct (entry_key t e) as [kf|]; [|discriminate]. destruct (entry_value t e) as [vf|]; [|discriminate].
        apply andb_true_iff in Hok. destruct Hok as [_ Hok]. cbn [zeros_shown] in Hz. rewrite forallb_forall in Hok, Hz.
        cbn [ItemRound.renew]. apply jagree_map.
        * now rewrite map_length.
        * intros k. rewrite map_get_renew. destruct (map_get k kvs); cbn; split; congruence.
        * intros k a b Ha. rewrite map_get_renew, Ha. cbn [option_map]. intros [= <-]. apply map_get_In in Ha.
          apply (IH _ Ha (Hs _ Ha)); [|apply (Hz _ Ha)]. right. exists (fd_kind vf). specialize (Hok _ Ha). now apply andb_true_iff in Hok.
  Qed.

  Theorem renewed_good m : ok_msg t m = true -> each_message safe (VMessage m) ->
    dm_desc (renewed m) = dm_desc m /\ ok_msg t (renewed m) = true /\
    (zeros_shown t full (VMessage m) = true -> jagree t (VMessage m) (VMessage (renewed m))).
  Proof.
    intros Hm Hs. destruct (all_stay (VMessage m) Hs) as (H1 & _ & H3). rewrite renew_message in * by assumption.
    specialize (H1 (KMessage (dm_desc m))). rewrite !ok_elem_msg in H1. cbn [kind_msg] in H1. rewrite Hm, Nat.eqb_refl in H1.
    specialize (H1 eq_refl). apply andb_true_iff in H1. destruct H1 as [Ha Hb]. apply Nat.eqb_eq in Ha. split; [auto|]. split; [exact Hb|].
    intros Hz. apply H3; [|exact Hz]. right. exists (KMessage (dm_desc m)). rewrite ok_elem_msg. cbn [kind_msg]. rewrite Hm, Nat.eqb_refl. reflexivity.
  Qed.
  (** ... of a message that is not itself written in the other form *)
  Theorem renew_msg_good m : ok_msg t m = true -> each_message safe (VMessage m) ->
    ok_msg t (renew_msg m) = true /\ (zeros_shown t full (VMessage m) = true -> jagree t (VMessage m) (VMessage (renew_msg m))).
  Proof.
    intros Hm Hs. apply ok_msg_iff in Hm.
    assert (A : Forall (fun kv => slot_all stays (snd kv)) (dm_fields m)).
    { apply Forall_forall. intros [k s] _. destruct s; cbn; auto. apply all_stay. }
    split; [apply ok_msg_iff; now apply renew_msg_ok|]. intros Hz. now apply renew_msg_agrees.
  Qed.
End RenewAny.
