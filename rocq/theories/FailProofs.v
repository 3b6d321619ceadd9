(** Failed merges: the proofs of C56. *)
From Verif Require Import Base BaseProofs Wire WireProofs LoopProofs Unknown UnknownProofs
  Value Descr Fields Codec DescrOk DescrProofs FieldsProofs LenProofs MergeProofs DepthProofs
  ExtendProofs RestrictProofs RecordProofs MergeRules FailSpec.

Section Loops.
  Context {S : Type} (step : S -> N -> wt -> bytes -> dres S).
  Hypothesis Hext : forall x s n w b, dext x b (step s n w b) (step s n w (b ++ x)).
  Hypothesis Hrev : forall x s n w b, drev x (step s n w (b ++ x)) (step s n w b).

  Definition stops (e : derr) (s1 : S) (rest : bytes) (s' : S) : Prop :=
    (decode_key rest = Err e /\ s' = s1) \/
    (exists n w p, decode_key rest = Ok (n, w, p) /\ step s1 n w p = DErr e s').

  Lemma stream_fail k : forall s b e s', stream_loop k step s b = DErr e s' ->
    exists cs s1 rest, b = concat cs ++ rest /\ runs step s cs s1 /\ stops e s1 rest s'.
  Proof.
    induction k as [|k IH]; intros s b e s'; cbn [stream_loop]; (destruct b as [|b0 b]; [discriminate|]); [discriminate|].
    destruct (decode_key (b0 :: b)) as [[[n w] y]|e0| |] eqn:Ek; try discriminate.
    - destruct (step s n w y) as [s1 z|e1 s1| |] eqn:Es; try discriminate.
      + intros H. destruct (IH _ _ _ _ H) as (cs & s2 & rest & -> & Hr & Ht).
        destruct (cut_record step Hext Hrev _ _ _ _ _ _ _ Ek Es) as (c & p & E1 & _ & E2 & E3).
        exists (c :: cs), s2, rest. cbn [concat]. rewrite <- app_assoc. split; [exact E1|]. split; [econstructor; eauto|exact Ht].
      + injection 1 as <- <-. exists [], s, (b0 :: b). split; [reflexivity|]. split; [constructor|]. right. eauto.
    - injection 1 as <- <-. exists [], s, (b0 :: b). split; [reflexivity|]. split; [constructor|]. left. auto.
  Qed.
  Lemma group_fail tag k : forall s b e s', group_loop k step tag s b = DErr e s' ->
    exists cs s1 rest, b = concat cs ++ rest /\ runs step s cs s1 /\ (stops e s1 rest s' \/ s' = s1).
  Proof.
    induction k as [|k IH]; intros s b e s'; cbn [group_loop]; [discriminate|].
    destruct (decode_key b) as [[[n w] y]|e0| |] eqn:Ek; try discriminate.
    - destruct (wt_eqb w WEnd) eqn:Ew.
      + destruct (n =? tag) eqn:En; [discriminate|]. injection 1 as <- <-.
        exists [], s, b. split; [reflexivity|]. split; [constructor|]. now right.
      + destruct (step s n w y) as [s1 z|e1 s1| |] eqn:Es; try discriminate.
        * intros H. destruct (IH _ _ _ _ H) as (cs & s2 & rest & -> & Hr & Ht).
          destruct (cut_record step Hext Hrev _ _ _ _ _ _ _ Ek Es) as (c & p & E1 & _ & E2 & E3).
          exists (c :: cs), s2, rest. cbn [concat]. rewrite <- app_assoc. split; [exact E1|]. split; [econstructor; eauto|exact Ht].
        * injection 1 as <- <-. exists [], s, b. split; [reflexivity|]. split; [constructor|]. left. right. eauto.
    - injection 1 as <- <-. exists [], s, b. split; [reflexivity|]. split; [constructor|]. left. left. auto.
  Qed.
  Lemma until_fail limit k : forall s b e s', loop_until k (keyed_step step) limit s b = DErr e s' ->
    exists cs s1 rest, b = concat cs ++ rest /\ runs step s cs s1 /\ (stops e s1 rest s' \/ s' = s1).
  Proof.
    induction k as [|k IH]; intros s b e s'; cbn [loop_until].
    - destruct (length b <=? limit)%nat; [|discriminate]. destruct (length b =? limit)%nat; [discriminate|].
      injection 1 as <- <-. exists [], s, b. split; [reflexivity|]. split; [constructor|]. now right.
    - destruct (length b <=? limit)%nat.
      + destruct (length b =? limit)%nat; [discriminate|].
        injection 1 as <- <-. exists [], s, b. split; [reflexivity|]. split; [constructor|]. now right.
      + unfold keyed_step at 1. destruct (decode_key b) as [[[n w] y]|e0| |] eqn:Ek; try discriminate.
        * destruct (step s n w y) as [s1 z|e1 s1| |] eqn:Es; try discriminate.
          -- intros H. destruct (IH _ _ _ _ H) as (cs & s2 & rest & -> & Hr & Ht).
             destruct (cut_record step Hext Hrev _ _ _ _ _ _ _ Ek Es) as (c & p & E1 & _ & E2 & E3).
             exists (c :: cs), s2, rest. cbn [concat]. rewrite <- app_assoc. split; [exact E1|]. split; [econstructor; eauto|exact Ht].
          -- injection 1 as <- <-. exists [], s, b. split; [reflexivity|]. split; [constructor|]. left. right. eauto.
        * injection 1 as <- <-. exists [], s, b. split; [reflexivity|]. split; [constructor|]. left. left. auto.
  Qed.
End Loops.

Lemma merge_scalar_fail k v w b e v' : merge_scalar k v w b = Some (DErr e v') ->
  (exists s, v = VString s /\ v' = VString []) \/ ((forall s, v <> VString s) /\ v' = v).
Proof.
  destruct v, k; cbn [merge_scalar]; try discriminate; intros H; apply (f_equal (fun o => match o with Some d => d | None => DPanic end)) in H; unfold rd in H;
    (destruct (wt_eqb _ w);
     [match type of H with dlift _ _ ?r = _ => destruct r as [[? ?]| | |]; try discriminate H end|]);
    cbn [dlift] in H; injection H as <- <-; first [right; split; [discriminate|reflexivity] | left; eauto].
Qed.

Section Fail.
  Variable t : tables.
  Hypothesis Hwf : wf t.

  Lemma push_fail j ctx f limit k : (j <= 202)%nat -> forall vs b e vs',
    loop_until k (fun vs b => match merge_value j t f (kind_default t (fd_kind f)) (kind_wt (fd_kind f)) ctx b with
                              | DOk x r => DOk (vs ++ [x]) r
                              | DErr e _ => DErr e vs
                              | DPanic => DPanic
                              | DFuel => DFuel
                              end) limit vs b = DErr e vs' ->
    exists cs rest more, b = concat cs ++ rest /\ vs' = vs ++ more /\ Forall2 (element t ctx f) cs more.
  Proof.
    intros Hj. induction k as [|k IH]; intros vs b e vs'; cbn [loop_until].
    - destruct (length b <=? limit)%nat; [|discriminate]. destruct (length b =? limit)%nat; [discriminate|].
      injection 1 as <- <-. exists [], b, []. rewrite app_nil_r. auto.
    - destruct (length b <=? limit)%nat.
      + destruct (length b =? limit)%nat; [discriminate|].
        injection 1 as <- <-. exists [], b, []. rewrite app_nil_r. auto.
      + destruct (merge_value j t f (kind_default t (fd_kind f)) (kind_wt (fd_kind f)) ctx b) as [x y|e1 s1| |] eqn:Es;
          try discriminate.
        * intros H. destruct (IH _ _ _ _ H) as (cs & rest & more & -> & -> & HF).
          pose proof (merge_value_ext t j [] f (kind_default t (fd_kind f)) (kind_wt (fd_kind f)) ctx b) as [Hs _].
          rewrite Es in Hs. cbn in Hs. destruct Hs as (c & ->).
          pose proof (proj1 (merge_value_rev t j) (concat cs ++ rest) f (kind_default t (fd_kind f)) (kind_wt (fd_kind f)) ctx c) as Hr.
          rewrite Es in Hr. cbn in Hr. specialize (Hr [] eq_refl).
          exists (c :: cs), rest, (x :: more). cbn [concat]. rewrite <- !app_assoc. split; [reflexivity|].
          split; [reflexivity|]. constructor; [|exact HF].
          unfold element. eapply dle_ok; [|exact Hr]. apply merge_value_dle_le, Hj.
        * injection 1 as <- <-. exists [], b, []. rewrite app_nil_r. auto.
  Qed.

  Lemma into_frame m f v :
    let m' := with_fields m (fs_put f v (fs_get_mut t f (dm_fields m))) in
    untouched t f m m' /\ (forall g, sibling f (fd_number g) -> has_field t m' g = false) /\
    get_field_value t m' f = v.
  Proof.
    intros m'.
    assert (G : forall k, k <> fd_number f ->
      bt_get k (fs_put f v (fs_get_mut t f (dm_fields m))) = if siblingb f k then None else bt_get k (dm_fields m)).
    { intros k Hk. unfold fs_put. rewrite bt_get_set_other by exact Hk. rewrite get_mut_get.
      destruct (k =? fd_number f) eqn:E; [lia|reflexivity]. }
    split; [|split].
    - apply untouched_intro; [reflexivity|]. intros k Hk Hs. cbn [dm_fields m' with_fields]. rewrite G by exact Hk.
      apply siblingb_nok in Hs. rewrite Hs. reflexivity.
    - intros g Hs. unfold has_field, fs_has, fs_get_value. cbn [dm_fields m' with_fields].
      assert (fd_number g <> fd_number f) by (destruct Hs as (? & _ & _ & Hne); exact Hne).
      rewrite G by assumption. apply siblingb_ok in Hs. rewrite Hs. reflexivity.
    - unfold get_field_value, fs_get, fs_get_value. cbn [dm_fields m' with_fields]. unfold fs_put. now rewrite bt_get_set_same.
  Qed.

  Definition value_fails (j : nat) : Prop := forall ctx f v w b e v',
    (2 * ctx + 1 <= j)%nat -> (j <= 202)%nat -> ok_field t f v = true -> bytes_ok b ->
    merge_value j t f v w ctx b = DErr e v' -> left_value t ctx f v b v'.

  Lemma runs_ok ctx m cs m' : (ctx <= 100)%nat -> ok_msg t m = true -> bytes_ok (concat cs) ->
    runs (merge_field ctx t) m cs m' -> ok_msg t m' = true.
  Proof.
    intros Hc Hm Hb H. refine (proj1 (merge_at_ok t Hwf ctx m (concat cs) m' [] Hc Hm Hb _)).
    apply merge_at_runs. eauto.
  Qed.

  Lemma stops_left j ctx m cs m1 rest e m' :
    value_fails j -> (2 * ctx + 2 <= j)%nat -> (j <= 202)%nat -> (ctx <= 100)%nat ->
    ok_msg t m = true -> bytes_ok (concat cs ++ rest) ->
    runs (merge_field ctx t) m cs m1 ->
    stops (merge_msg_field t (merge_value j t) ctx) e m1 rest m' ->
    left_msg t ctx m (concat cs ++ rest) m'.
  Proof.
    intros IH Hc Hj Hx Hm Hb Hr [[Hk ->]|(n & w & p & Hk & Hs)]; [eapply left_bad_key; eauto|].
    apply bytes_ok_app in Hb. destruct Hb as [Hb1 Hb2].
    pose proof (runs_ok ctx m cs m1 Hx Hm Hb1 Hr) as Hm1.
    pose proof (suffix_ok _ _ (decode_key_suffix _ _ _ _ Hk) Hb2) as Hp.
    unfold merge_msg_field in Hs. destruct (find_desc t (dm_desc m1) n) as [f|] eqn:Hf.
    - unfold merge_into in Hs.
      destruct (merge_value j t f (fs_get t f (fs_get_mut t f (dm_fields m1))) w ctx p) as [v r|e1 v| |] eqn:Ev;
        try discriminate Hs. injection Hs as <- <-.
      assert (Eg : fs_get t f (fs_get_mut t f (dm_fields m1)) = get_field_value t m1 f).
      { unfold fs_get at 1, fs_get_value. rewrite get_mut_get, N.eqb_refl. reflexivity. }
      rewrite Eg in Ev.
      destruct (into_frame m1 f v) as (H1 & H2 & H3).
      eapply left_bad_field; eauto. rewrite H3.
      eapply IH; [| |eapply stored_value; eassumption|exact Hp|exact Ev]; lia.
    - destruct (uf_decode_value ctx n w p) as [[u r]|e1| |] eqn:Eu; try discriminate Hs.
      + destruct (fs_add_unknown n u (dm_fields m1)); discriminate Hs.
      + injection Hs as <- <-. eapply left_bad_unknown; eauto.
  Qed.

  Lemma ok_field_message f m : ok_field t f (VMessage m) = true -> ok_msg t m = true.
  Proof.
    cbn [ok_field]. intros H. apply andb_prop in H. destruct H as [_ H].
    destruct (kind_msg (fd_kind f)) as [i|] eqn:Hk.
    - eapply ok_elem_msg_inv in H; eauto. destruct H as (m' & E & _ & H). injection E as <-. exact H.
    - exfalso. destruct m. cbn [ok_elem] in H. rewrite Hk in H. discriminate.
  Qed.

  Lemma value_fails_all j : value_fails j.
  Proof.
    induction j as [|j IH]; intros ctx f v w b e v' Hc Hj Hok Hb; [lia|].
    cbn [merge_value]. unfold merge_body.
    assert (Hsc : match merge_scalar (fd_kind f) v w b with Some d => d | None => DPanic end = DErr e v' ->
                  left_value t ctx f v b v').
    { destruct (merge_scalar (fd_kind f) v w b) as [d|] eqn:Es; [|discriminate]. intros ->.
      apply merge_scalar_fail in Es. destruct Es as [(s & -> & ->)|[Hn ->]]; constructor; auto. }
    destruct v as [b0|z|z|n0|n0|n0|n0|s|s|z|m|vs|kvs]; try exact Hsc; clear Hsc.
    - (* message *)
      destruct (kind_msg (fd_kind f)) as [i|] eqn:Hk; [|discriminate].
      pose proof (ok_field_message f m Hok) as Hm.
      destruct (fd_is_group f).
      + destruct (negb (wt_eqb WStart w)); [injection 1 as <- <-; constructor; discriminate|].
        destruct ctx as [|ctx]; [injection 1 as <- <-; constructor; discriminate|].
        destruct (group_loop (S (length b)) (merge_msg_field t (merge_value j t) ctx) (fd_number f) m b)
          as [m' r|e1 m'| |] eqn:E; cbn [dmap]; try discriminate. injection 1 as <- <-.
        apply group_fail in E; [|intros; apply merge_step_ext|intros; apply merge_step_rev].
        destruct E as (cs & m1 & rest & -> & Hr & Ht).
        pose proof (proj1 (bytes_ok_app _ _) Hb) as [Hb1 _].
        apply runs_n in Hr; [|exact Hwf|lia|lia|exact Hm|exact Hb1].
        destruct Ht as [Ht| ->].
        * apply (left_message t ctx f m [] (concat cs ++ rest)). eapply stops_left; eauto; lia.
        * apply (left_ends t ctx f m [] cs rest). exact Hr.
      + destruct (negb (wt_eqb WLen w)); [injection 1 as <- <-; constructor; discriminate|].
        destruct ctx as [|ctx]; [injection 1 as <- <-; constructor; discriminate|].
        unfold merge_loop. destruct (decode_varint b) as [[len y]|e0| |] eqn:Ed; cbn [dmap]; try discriminate;
          [|injection 1 as <- <-; constructor; discriminate].
        destruct (N.of_nat (length y) <? len); [injection 1 as <- <-; constructor; discriminate|].
        match goal with |- dmap VMessage ?d = _ -> _ => destruct d as [m' r|e1 m'| |] eqn:E end; cbn [dmap]; try discriminate.
        injection 1 as <- <-.
        pose proof (decode_varint_suffix _ _ _ Ed) as Hsx. pose proof (suffix_ok _ _ Hsx Hb) as Hy.
        destruct Hsx as (q & ->).
        apply until_fail in E; [|intros; apply merge_step_ext|intros; apply merge_step_rev].
        destruct E as (cs & m1 & rest & -> & Hr & Ht).
        pose proof (proj1 (bytes_ok_app _ _) Hy) as [Hb1 _].
        apply runs_n in Hr; [|exact Hwf|lia|lia|exact Hm|exact Hb1].
        destruct Ht as [Ht| ->].
        * apply left_message. eapply stops_left; eauto; lia.
        * apply left_ends. exact Hr.
    - (* list *)
      destruct (fd_is_list f); [|discriminate].
      destruct (wt_eqb w WLen && fd_is_packable f).
      + unfold merge_loop. destruct (decode_varint b) as [[len y]|e0| |] eqn:Ed; cbn [dmap]; try discriminate;
          [|injection 1 as <- <-; constructor; discriminate].
        destruct (N.of_nat (length y) <? len); [injection 1 as <- <-; constructor; discriminate|].
        match goal with |- dmap VList ?d = _ -> _ => destruct d as [m' r|e1 m'| |] eqn:E end; cbn [dmap]; try discriminate.
        injection 1 as <- <-. apply push_fail in E; [|lia].
        destruct E as (cs & rest & more & -> & -> & HF).
        pose proof (decode_varint_suffix _ _ _ Ed) as (q & ->). now apply left_packed.
      + destruct (merge_value j t f (kind_default t (fd_kind f)) w ctx b); try discriminate.
        injection 1 as <- <-. constructor. discriminate.
    - (* map *)
      destruct (kind_msg (fd_kind f)) as [i|]; [|discriminate].
      destruct (fd_is_map f); [|discriminate].
      destruct (entry_key t i) as [kf|]; [|discriminate]. destruct (entry_value t i) as [vf|]; [|discriminate].
      destruct (mk_default (fd_kind kf)) as [k0|]; [|discriminate].
      match goal with |- match ?d with _ => _ end = _ -> _ => destruct d as [[? ?] ?|? ?| |] end; try discriminate.
      injection 1 as <- <-. constructor. discriminate.
  Qed.

  Lemma merge_fails m b e m' :
    ok_msg t m = true -> bytes_ok b -> msg_merge t m b = DErr e m' -> left_msg t 100 m b m'.
  Proof.
    intros Hm Hb H. rewrite (merge_at_100 t m b Hwf Hm Hb) in H. unfold merge_at in H.
    apply stream_fail in H; [|intros; apply merge_step_ext|intros; apply merge_step_rev].
    destruct H as (cs & m1 & rest & -> & Hr & Ht).
    eapply (stops_left 202); eauto; try lia. apply value_fails_all.
  Qed.
End Fail.
