(** What any accepted map entry payload does (for C10 and C19). *)
From Verif Require Import Base BaseProofs Wire WireProofs LoopProofs Unknown UnknownProofs Value Descr
  Fields Codec DescrOk DescrProofs FieldsProofs LenProofs MergeProofs ExtendProofs RestrictProofs RecordProofs
  MergeRules RoundSpec RoundProofs RoundMain EntryProofs.
Open Scope N_scope.

(** The keys, values and sub-message payloads carried by the records [cs] of
    an entry, each read on its own. *)
Definition keys_of (k : kind) (k0 : mapkey) (cs : list bytes) : list mapkey :=
  flat_map (fun c => match decode_key c with
    | Ok (n, w, p) => if n =? 1 then match mk_merge k k0 w p with DOk x _ => [x] | _ => [] end else []
    | _ => [] end) cs.
Definition vals_of (k : kind) (v0 : value) (cs : list bytes) : list value :=
  flat_map (fun c => match decode_key c with
    | Ok (n, w, p) => if n =? 2 then match merge_scalar k v0 w p with Some (DOk x _) => [x] | _ => [] end else []
    | _ => [] end) cs.
Definition subs_of (cs : list bytes) : list bytes :=
  flat_map (fun c => match decode_key c with
    | Ok (n, w, p) => if n =? 2 then match read_delimited p with Ok (s, _) => [s] | _ => [] end else []
    | _ => [] end) cs.

Section Any.
  Variable t : tables.
  Hypothesis Hwf : wf t.
  Let Ht : tables_ok t := proj1 Hwf.

  Definition entry_inv (kf vf : fdl) (kv : mapkey * value) : Prop :=
    mk_okb (fd_kind kf) (fst kv) = true /\ ok_elem t (snd kv) (fd_kind vf) = true.

  Lemma entry_step_inv ctx e kf vf kv num w p kv' r :
    (ctx <= 100)%nat -> entry_value t e = Some vf -> bytes_ok p ->
    entry_inv kf vf kv -> entry_step t 201 kf vf ctx kv num w p = DOk kv' r -> entry_inv kf vf kv'.
  Proof.
    intros Hctx Ev Hb [Hk Hv] H. unfold entry_step in H.
    destruct (num =? MAP_KEY_NUMBER).
    - pose proof (mk_merge_good (fd_kind kf) (fst kv) w p Hk Hb) as G.
      destruct (mk_merge (fd_kind kf) (fst kv) w p) as [k' r'|? ?| |]; try discriminate H.
      cbn [dmap] in H. injection H as <- <-. destruct G as [G _]. split; [exact G|exact Hv].
    - destruct (num =? MAP_VALUE_NUMBER).
      + pose proof (get_field_ok _ _ _ _ Ht Ev) as Hfo.
        assert (Hsh : fdl_shape t vf).
        { eapply find_desc_shape; [exact Hwf|]. unfold find_desc. unfold entry_value in Ev. rewrite Ev. reflexivity. }
        pose proof (proj1 (merge_value_good t Hwf 201)) as EG.
        destruct (EG ctx vf (snd kv) w p (Nat.max (depth (snd kv)) 101) Hfo Hsh Hb
                    (Nat.le_trans _ _ _ (le_n_S _ _ Hctx) (Nat.le_max_r _ _)) ltac:(lia)
                    (conj Hv (Nat.le_max_l _ _))) as [G _].
        destruct (merge_value 201 t vf (snd kv) w ctx p) as [v' r'|? ?| |]; try discriminate H.
        cbn [dmap] in H. injection H as <- <-. destruct G as [[G _] _]. split; [exact Hk|exact G].
      + destruct (skip_field ctx w num p); try discriminate H. injection H as <- <-. split; assumption.
  Qed.

  Lemma payload_ok c n w p : bytes_ok c -> decode_key c = Ok (n, w, p) -> bytes_ok p.
  Proof. intros Hc H. eapply suffix_ok; [eapply decode_key_suffix; exact H|exact Hc]. Qed.

  Lemma entry_types ctx e kf vf kv cs kv' :
    (ctx <= 100)%nat -> entry_value t e = Some vf -> bytes_ok (concat cs) ->
    entry_inv kf vf kv -> runs (entry_step t 201 kf vf ctx) kv cs kv' ->
    entry_inv kf vf kv' /\
    Forall (key_is (fun n w => (n = 1 -> w = natural_wt (fd_kind kf)) /\ (n = 2 -> w = natural_wt (fd_kind vf)))) cs.
  Proof.
    intros Hctx Ev Hb Hi R. revert Hb Hi. induction R as [kv|kv c n w p kv1 cs kv2 Hk Hs R IH]; intros Hb Hi.
    - split; [exact Hi|constructor].
    - cbn [concat] in Hb. apply bytes_ok_app in Hb. destruct Hb as [Hc Hcs].
      pose proof (payload_ok _ _ _ _ Hc Hk) as Hp.
      pose proof (entry_step_inv _ _ _ _ _ _ _ _ _ _ Hctx Ev Hp Hi Hs) as Hi1.
      destruct (IH Hcs Hi1) as [Hi2 Hf]. split; [exact Hi2|]. constructor; [|exact Hf].
      exists n, w, p. split; [exact Hk|].
      assert (D : forall a b : wt, a = b \/ a <> b) by (intros [] []; (left; reflexivity) || (right; discriminate)).
      destruct Hi as [Hi' Hi'']. split; intros ->.
      + destruct (D w (natural_wt (fd_kind kf))) as [E|E]; [exact E|exfalso].
        destruct (entry_wrong t ctx kf vf kv 1 w p Hi' Hi'' (fun _ => E) ltac:(discriminate) (or_introl eq_refl)) as (kv' & X).
        rewrite X in Hs. discriminate.
      + destruct (D w (natural_wt (fd_kind vf))) as [E|E]; [exact E|exfalso].
        destruct (entry_wrong t ctx kf vf kv 2 w p Hi' Hi'' ltac:(discriminate) (fun _ => E) (or_intror eq_refl)) as (kv' & X).
        rewrite X in Hs. discriminate.
  Qed.

  Lemma mk_merge_indep k k1 k2 w p x r :
    mk_okb k k1 = true -> mk_okb k k2 = true -> mk_merge k k1 w p = DOk x r -> mk_merge k k2 w p = DOk x r.
  Proof.
    intros H1 H2. unfold mk_merge. rewrite mk_value_ok in H1, H2.
    destruct (merge_scalar k (mk_value k1) w p) as [[v r'|? v| |]|] eqn:E; try discriminate.
    - destruct (value_mk v) eqn:Em; [|discriminate]. intros [= <- <-].
      rewrite (merge_scalar_indep _ _ _ _ _ _ _ H1 H2 E), Em. reflexivity.
    - destruct (value_mk v); discriminate.
  Qed.

  (** the last key wins, whatever the value type *)
  Lemma entry_last_key ctx e kf vf kv cs kv' :
    (ctx <= 100)%nat -> entry_value t e = Some vf -> bytes_ok (concat cs) -> entry_inv kf vf kv ->
    runs (entry_step t 201 kf vf ctx) kv cs kv' ->
    forall k0, mk_okb (fd_kind kf) k0 = true -> fst kv' = last (keys_of (fd_kind kf) k0 cs) (fst kv).
  Proof.
    intros Hctx Ev Hb Hi R k0 Hk0. revert Hb Hi.
    induction R as [kv|kv c n w p kv1 cs kv2 Hkey Hs R IH]; intros Hb Hi; [reflexivity|].
    cbn [concat] in Hb. apply bytes_ok_app in Hb. destruct Hb as [Hc Hcs].
    pose proof (payload_ok _ _ _ _ Hc Hkey) as Hp.
    rewrite (IH Hcs (entry_step_inv _ _ _ _ _ _ _ _ _ _ Hctx Ev Hp Hi Hs)). clear IH R.
    unfold keys_of. cbn [flat_map]. rewrite Hkey. fold (keys_of (fd_kind kf) k0 cs).
    unfold entry_step in Hs. destruct Hi as [Hk _]. destruct kv as [k v]. cbn [fst snd] in *.
    destruct (n =? MAP_KEY_NUMBER) eqn:E1; change MAP_KEY_NUMBER with 1 in E1; rewrite E1.
    - destruct (mk_merge (fd_kind kf) k w p) as [k' r'|? ?| |] eqn:Em; try discriminate Hs.
      cbn [dmap] in Hs. injection Hs as <- ->.
      rewrite (mk_merge_indep _ _ _ _ _ _ _ Hk Hk0 Em). cbn [app fst]. rewrite last_cons. reflexivity.
    - cbn [app]. destruct (n =? MAP_VALUE_NUMBER).
      + destruct (merge_value 201 t vf v w ctx p); try discriminate Hs. cbn [dmap] in Hs. injection Hs as <- _. reflexivity.
      + destruct (skip_field ctx w n p); try discriminate Hs. injection Hs as <- _. reflexivity.
  Qed.

  (** scalar values: the last key and the last value win *)
  Lemma entry_scalars ctx e kf vf k v cs kv' :
    (ctx <= 100)%nat -> entry_value t e = Some vf -> is_msg_kind (fd_kind vf) = false -> bytes_ok (concat cs) ->
    mk_okb (fd_kind kf) k = true -> sc_okb (fd_kind vf) v = true ->
    runs (entry_step t 201 kf vf ctx) (k, v) cs kv' ->
    forall k0 v0, mk_okb (fd_kind kf) k0 = true -> sc_okb (fd_kind vf) v0 = true ->
    kv' = (last (keys_of (fd_kind kf) k0 cs) k, last (vals_of (fd_kind vf) v0 cs) v).
  Proof.
    intros Hctx Ev Hm Hb Hk Hv R k0 v0 Hk0 Hv0. remember (k, v) as kv eqn:Ekv. revert k v Ekv Hk Hv Hb.
    induction R as [kv|kv c n w p kv1 cs kv2 Hkey Hs R IH]; intros k v -> Hk Hv Hb; [reflexivity|].
    cbn [concat] in Hb. apply bytes_ok_app in Hb. destruct Hb as [Hc Hcs].
    pose proof (payload_ok _ _ _ _ Hc Hkey) as Hp.
    assert (Hi : entry_inv kf vf (k, v)) by (split; [exact Hk|apply sc_ok_elem, Hv]).
    pose proof (entry_step_inv _ _ _ _ _ _ _ _ _ _ Hctx Ev Hp Hi Hs) as [Hi1 Hi2]. destruct kv1 as [k1 v1].
    cbn [fst snd] in Hi1, Hi2. apply ok_elem_scalar in Hi2; [|exact Hm].
    pose proof (IH k1 v1 eq_refl Hi1 Hi2 Hcs) as ->. clear IH R.
    unfold keys_of, vals_of. cbn [flat_map]. rewrite Hkey.
    fold (keys_of (fd_kind kf) k0 cs). fold (vals_of (fd_kind vf) v0 cs).
    unfold entry_step in Hs. cbn [fst snd] in Hs.
    destruct (n =? MAP_KEY_NUMBER) eqn:E1.
    - change MAP_KEY_NUMBER with 1 in E1. apply N.eqb_eq in E1. subst n. cbn [N.eqb Pos.eqb].
      destruct (mk_merge (fd_kind kf) k w p) as [k' r'|? ?| |] eqn:Em; try discriminate Hs.
      cbn [dmap] in Hs. injection Hs as -> <- ->.
      rewrite (mk_merge_indep _ _ _ _ _ _ _ Hk Hk0 Em). cbn [app]. rewrite last_cons. reflexivity.
    - change MAP_KEY_NUMBER with 1 in E1. rewrite E1. cbn [app].
      destruct (n =? MAP_VALUE_NUMBER) eqn:E2; change MAP_VALUE_NUMBER with 2 in E2; rewrite E2; cbn [app].
      + rewrite (scalar_merge t 200 ctx vf v w p Hv) in Hs.
        destruct (merge_scalar (fd_kind vf) v w p) as [[v' r'|? ?| |]|] eqn:Em; try discriminate Hs.
        cbn [dmap] in Hs. injection Hs as <- -> ->.
        rewrite (merge_scalar_indep _ _ _ _ _ _ _ Hv Hv0 Em). cbn [app]. rewrite last_cons. reflexivity.
      + destruct (skip_field ctx w n p); try discriminate Hs. injection Hs as <- <- _. reflexivity.
  Qed.

  (** message values: the payloads are merged one after the other *)
  Lemma entry_messages ctx e kf vf i k sub cs k' v' :
    (S ctx <= 100)%nat -> entry_value t e = Some vf -> fd_kind vf = KMessage i -> bytes_ok (concat cs) ->
    mk_okb (fd_kind kf) k = true -> dm_desc sub = i -> ok_msg t sub = true ->
    runs (entry_step t 201 kf vf (S ctx)) (k, VMessage sub) cs (k', v') ->
    forall k0, mk_okb (fd_kind kf) k0 = true ->
    k' = last (keys_of (fd_kind kf) k0 cs) k /\
    exists sub', merge_each ctx t sub (subs_of cs) = Some sub' /\ v' = VMessage sub'.
  Proof.
    intros Hctx Ev Hi Hb Hk Hd Hsub R k0 Hk0.
    remember (k, VMessage sub) as kv eqn:Ekv. remember (k', v') as kv' eqn:Ekv'.
    revert k sub Ekv Hk Hd Hsub Hb Ekv'.
    induction R as [kv|kv c n w p kv1 cs kv2 Hkey Hs R IH]; intros k sub -> Hk Hd Hsub Hb Ekv'.
    - injection Ekv' as <- <-. split; [reflexivity|]. exists sub. split; reflexivity.
    - cbn [concat] in Hb. apply bytes_ok_app in Hb. destruct Hb as [Hc Hcs].
      pose proof (payload_ok _ _ _ _ Hc Hkey) as Hp.
      assert (Hinv : entry_inv kf vf (k, VMessage sub)).
      { split; [exact Hk|]. cbn [snd]. rewrite ok_elem_msg, Hi. cbn [kind_msg]. rewrite Hd, Nat.eqb_refl. exact Hsub. }
      pose proof (entry_step_inv _ _ _ _ _ _ _ _ _ _ Hctx Ev Hp Hinv Hs) as [Hi1 Hi2]. destruct kv1 as [k1 v1].
      cbn [fst snd] in Hi1, Hi2.
      assert (exists s1, v1 = VMessage s1) as [s1 ->].
      { destruct v1; try (rewrite Hi in Hi2; cbn in Hi2; discriminate). eexists; reflexivity. }
      rewrite ok_elem_msg, Hi in Hi2. cbn [kind_msg] in Hi2. apply andb_true_iff in Hi2. destruct Hi2 as [Hd1 Hs1].
      apply Nat.eqb_eq in Hd1.
      destruct (IH k1 s1 eq_refl Hi1 Hd1 Hs1 Hcs Ekv') as (-> & sub' & Hme & ->). clear IH R.
      unfold keys_of, subs_of. cbn [flat_map]. rewrite Hkey.
      fold (keys_of (fd_kind kf) k0 cs). fold (subs_of cs).
      unfold entry_step in Hs. cbn [fst snd] in Hs.
      destruct (n =? MAP_KEY_NUMBER) eqn:E1.
      + change MAP_KEY_NUMBER with 1 in E1. apply N.eqb_eq in E1. subst n. cbn [N.eqb Pos.eqb].
        destruct (mk_merge (fd_kind kf) k w p) as [k'' r'|? ?| |] eqn:Em; try discriminate Hs.
        cbn [dmap] in Hs. injection Hs as -> <- ->.
        rewrite (mk_merge_indep _ _ _ _ _ _ _ Hk Hk0 Em). cbn [app]. rewrite last_cons. split; [reflexivity|].
        exists sub'. split; [exact Hme|reflexivity].
      + change MAP_KEY_NUMBER with 1 in E1. rewrite E1. cbn [app].
        destruct (n =? MAP_VALUE_NUMBER) eqn:E2; change MAP_VALUE_NUMBER with 2 in E2; rewrite E2; cbn [app].
        * destruct (merge_value 201 t vf (VMessage sub) w (S ctx) p) as [v' r'|? ?| |] eqn:Em; try discriminate Hs.
          cbn [dmap] in Hs. injection Hs as <- -> ->.
          pose proof (proj1 (sub_message t Hwf 201 ctx vf i sub w p s1 [] ltac:(lia) ltac:(lia) Hi Hsub Hp) Em)
            as (-> & s & Hrd & Hma).
          rewrite Hrd. cbn [app merge_each]. rewrite Hma. split; [reflexivity|]. exists sub'. split; [exact Hme|reflexivity].
        * destruct (skip_field (S ctx) w n p); try discriminate Hs. injection Hs as <- <- _.
          split; [reflexivity|]. exists sub'. split; [exact Hme|reflexivity].
  Qed.
End Any.
