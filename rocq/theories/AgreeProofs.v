(** Facts about [agree]: it is transitive, weaker than [same], and does not
    depend on which of two compatible schemas it is asked in. *)
From Verif Require Import Base BaseProofs Wire WireProofs Unknown UnknownProofs Value Descr Fields
  Codec DescrOk DescrProofs FieldsProofs LenProofs EncBytes MergeProofs RoundSpec RoundProofs RoundMain RoundSame
  ItemRound CompatSpec Compat Prop_Transcode.
Open Scope list_scope.
Open Scope N_scope.

Lemma has_stored t m f : has_field t m f = true -> exists v, bt_get (fd_number f) (dm_fields m) = Some (SVal v) /\ get_field_value t m f = v /\ fd_has t f v = true.
Proof.
  unfold has_field, get_field_value, fs_has, fs_get, fs_get_value. destruct (bt_get (fd_number f) (dm_fields m)) as [[|v|us]|]; try discriminate.
  intros H. exists v. auto.
Qed.

Lemma same_agree t v : forall v', same t v v' -> agree t v v'.
Proof.
  induction v as [b|z|z|n|n|n|n|s|s|z|d fs IH|vs IH|kvs IH] using value_ind'; intros v' H;
    try (inversion H; subst; apply agree_scalar; assumption).
  - inversion H as [? Hs| | |? m' H1 H2 H3 H4 H5]; subst; [discriminate Hs|]. rewrite Forall_forall in IH.
    apply agree_message; auto. intros n f Hf Hh. specialize (H3 n f Hf Hh).
    destruct (has_stored _ _ _ Hh) as (v & Hb & Eg & _). rewrite Eg in *. apply bt_get_In in Hb. apply (IH _ Hb), H3.
  - inversion H as [? Hs|? l' F| |]; subst; [discriminate Hs|]. apply agree_list. clear H. induction F; constructor.
    + inversion IH; subst; auto.
    + apply IHF. inversion IH; subst; auto.
  - inversion H as [? Hs| |? l' H1 H2 H3|]; subst; [discriminate Hs|]. rewrite Forall_forall in IH.
    apply agree_map; auto. intros k a b Ha Hb. pose proof (map_get_In _ _ _ Ha) as Hin. apply (IH _ Hin). eapply H3; eassumption.
Qed.

Lemma agree_trans t a : forall b c, agree t a b -> agree t b c -> agree t a c.
Proof.
  induction a as [b|z|z|n|n|n|n|s|s|z|d fs IH|vs IH|kvs IH] using value_ind'; intros y w H H';
    try (inversion H; subst; exact H').
  - inversion H as [? Hs| | |? m1 A1 A2 A3 A4]; subst; [discriminate Hs|].
    inversion H' as [? Hs| | |? m2 B1 B2 B3 B4]; subst; [discriminate Hs|]. rewrite Forall_forall in IH.
    cbn [dm_desc] in *. rewrite <- A1 in *. apply agree_message; cbn [dm_desc]; [congruence| | |].
    + intros n f Hf. rewrite (A2 n f Hf). now apply B2 with n.
    + intros n f Hf Hh. pose proof (A3 n f Hf Hh) as A. pose proof Hh as Hh'. rewrite (A2 n f Hf) in Hh'.
      pose proof (B3 n f Hf Hh') as B. destruct (has_stored _ _ _ Hh) as (v & Hb & Eg & _). rewrite Eg in *.
      apply bt_get_In in Hb. eapply (IH _ Hb); eassumption.
    + intros n f Hf Hh. rewrite (A4 n f Hf Hh). rewrite (A2 n f Hf) in Hh. now apply B4 with n.
  - inversion H as [? Hs|? l1 F| |]; subst; [discriminate Hs|]. inversion H' as [? Hs|? l2 F'| |]; subst; [discriminate Hs|].
    apply agree_list. clear H H'. revert l2 F'. induction F; intros l2 F'; inversion F'; subst; constructor.
    + inversion IH; subst; eauto.
    + apply IHF; [inversion IH; subst; auto|assumption].
  - inversion H as [? Hs| |? l1 A1 A2 A3|]; subst; [discriminate Hs|]. inversion H' as [? Hs| |? l2 B1 B2 B3|]; subst; [discriminate Hs|].
    rewrite Forall_forall in IH. apply agree_map; [congruence|intros k; rewrite A2; apply B2|].
    intros k a c Ha Hc. destruct (map_get k l1) as [b|] eqn:Eb.
    + pose proof (map_get_In _ _ _ Ha) as Hin. eapply (IH _ Hin); [eapply A3|eapply B3]; eassumption.
    + apply A2 in Eb. congruence.
Qed.

Lemma agree_refl t v : agree t v v.
Proof.
  induction v as [b|z|z|n|n|n|n|s|s|z|d fs IH|vs IH|kvs IH] using value_ind'; try (apply agree_scalar; reflexivity).
  - apply agree_message; auto. intros n f Hf Hh. destruct (has_stored _ _ _ Hh) as (v & Hb & Eg & _). rewrite Eg.
    rewrite Forall_forall in IH. apply bt_get_In in Hb. apply (IH _ Hb).
  - apply agree_list. induction IH; constructor; auto.
  - rewrite Forall_forall in IH. apply agree_map; [reflexivity|reflexivity|].
    intros k a b Ha. rewrite Ha. intros [= <-]. apply (IH _ (map_get_In _ _ _ Ha)).
Qed.

Lemma map_get_ren rho k l : map_get k (map (fun kv => (fst kv, ren rho (snd kv))) l) = option_map (ren rho) (map_get k l).
Proof. induction l as [|[k' v] l IH]; cbn; [reflexivity|]. destruct (mk_eqb k k'); [reflexivity|exact IH]. Qed.

(** ** Seen from a compatible schema *)
Section Ren.
  Variables (t t' : tables) (D : nat -> bool) (rho : nat -> nat).
  Hypothesis Hw : wf t.
  Hypothesis Hw' : wf t'.
  Hypothesis C : compatible t t' D rho.

  (** where messages of the values of a field live *)
  Definition kindD (k : kind) : Prop := match kind_msg k with Some i => D i = true | None => True end.

  Lemma like_kindD k k' : kind_like t t' D rho k k' -> kindD k.
  Proof. unfold kindD. destruct k, k'; cbn; try tauto; intros [H _]; exact H. Qed.

  Definition ren_back (v : value) : Prop := forall w,
    (forall k, kindD k -> ok_elem t v k = true -> ok_elem t w k = true -> agree t' (ren rho v) (ren rho w) -> agree t v w) /\
    (forall f f', field_like t t' D rho f f' -> fdl_ok t f -> fdl_shape t f -> ok_field t f v = true -> ok_field t f w = true ->
       agree t' (ren rho v) (ren rho w) -> agree t v w).

  Lemma scalar_back v w : scalar v = true -> agree t' (ren rho v) (ren rho w) -> agree t v w.
  Proof.
    intros Hs H. rewrite ren_scalar in H by exact Hs. destruct v; try discriminate Hs; inversion H; subst;
      destruct w; try discriminate; cbn in *; try (match goal with E : _ = _ |- _ => injection E as <- end); try (apply agree_scalar; reflexivity);
      destruct m; discriminate.
  Qed.

  Lemma unset_default m f v : msg_ok t m -> find_desc t (dm_desc m) (fd_number f) = Some f -> has_field t m f = false ->
    get_field_value t m f = v -> scalar v = false -> v = fd_default_value t f.
  Proof.
    intros Hm Hf Hh Eg Hs. subst v. pose proof (find_desc_ok _ _ _ _ (proj1 Hw) Hf) as Hfo.
    assert (Hok : ok_field t f (get_field_value t m f) = true) by (destruct m as [d fs]; eapply (stored_ok t Hw); [exact Hm|exact Hf]).
    unfold has_field, get_field_value, fs_has, fs_get, fs_get_value in *.
    destruct (bt_get (fd_number f) (dm_fields m)) as [[|v|us]|]; try reflexivity.
    apply omitted_default; auto; [|rewrite has_omitted in Hh; now apply negb_false_iff in Hh].
    unfold zero_kept. destruct v; try discriminate Hs; now rewrite orb_true_r.
  Qed.

  Lemma message_back m w : D (dm_desc m) = true -> msg_ok t m -> msg_ok t w -> dm_desc m = dm_desc w ->
    Forall (fun kv => slot_all ren_back (snd kv)) (dm_fields m) ->
    agree_msg t' (ren_msg rho m) (ren_msg rho w) -> agree_msg t m w.
  Proof.
    intros HD Hm Hw2 Ed IH H. inversion H as [? Hs| | |? ? A1 A2 A3 A4]; subst; [discriminate Hs|].
    assert (L : forall n f, find_desc t (dm_desc m) n = Some f -> exists f', find_desc t' (rho (dm_desc m)) n = Some f' /\ field_like t t' D rho f f').
    { intros n f. apply (like_find_some t t' D rho Hw Hw' C _ _ _ HD). }
    assert (R : forall n f, find_desc t (dm_desc m) n = Some f -> exists f', find_desc t' (rho (dm_desc m)) n = Some f' /\ field_like t t' D rho f f' /\
      has_field t' (ren_msg rho m) f' = has_field t m f /\ get_field_value t' (ren_msg rho m) f' = ren rho (get_field_value t m f) /\
      has_field t' (ren_msg rho w) f' = has_field t w f /\ get_field_value t' (ren_msg rho w) f' = ren rho (get_field_value t w f)).
    { intros n f Hf. destruct (L n f Hf) as (f' & Hf' & Hl). exists f'. split; [exact Hf'|]. split; [exact Hl|].
      destruct (ren_get_value t t' D rho m n f f' Hw Hl Hf) as [-> ->].
      rewrite Ed in Hf. destruct (ren_get_value t t' D rho w n f f' Hw Hl Hf) as [-> ->]. auto. }
    cbn [ren_msg dm_desc] in A2, A3, A4.
    apply agree_message; [exact Ed| | |].
    - intros n f Hf. destruct (R n f Hf) as (f' & Hf' & Hl & R1 & R2 & R3 & R4). rewrite <- R1, <- R3. now apply A2 with n.
    - intros n f Hf Hh. destruct (R n f Hf) as (f' & Hf' & Hl & R1 & R2 & R3 & R4).
      assert (Hn : fd_number f = n) by (eapply find_desc_number; [exact (proj1 Hw)|exact Hf]).
      specialize (A3 n f' Hf'). rewrite R1, R2, R4 in A3. specialize (A3 Hh).
      destruct (has_stored _ _ _ Hh) as (v & Hb & Eg & _). rewrite Eg in *.
      rewrite Forall_forall in IH. pose proof (IH _ (bt_get_In _ _ _ Hb)) as HI. cbn in HI.
      apply (proj2 (HI (get_field_value t w f)) f f' Hl).
      + eapply find_desc_ok; [exact (proj1 Hw)|exact Hf].
      + eapply find_desc_shape; [exact Hw|exact Hf].
      + rewrite <- Eg. destruct m as [d fs]. eapply (stored_ok t Hw); [exact Hm|rewrite Hn; exact Hf].
      + rewrite Ed in Hf. destruct w as [d fs]. eapply (stored_ok t Hw); [exact Hw2|rewrite Hn; exact Hf].
      + exact A3.
    - intros n f Hf Hh. destruct (R n f Hf) as (f' & Hf' & Hl & R1 & R2 & R3 & R4).
      assert (Hn : fd_number f = n) by (eapply find_desc_number; [exact (proj1 Hw)|exact Hf]). rewrite <- Hn in Hf.
      specialize (A4 n f' ltac:(congruence)). rewrite R1, R2, R4 in A4. specialize (A4 Hh).
      assert (Hh2 : has_field t w f = false).
      { rewrite <- R3, <- (A2 n f' ltac:(congruence)), R1. exact Hh. }
      assert (Sc : forall v, scalar (ren rho v) = scalar v) by (intros [| | | | | | | | | |[]| |]; reflexivity).
      destruct (scalar (get_field_value t m f)) eqn:S1.
      + assert (S2 : scalar (get_field_value t w f) = true) by (rewrite <- Sc, <- A4, Sc; exact S1).
        rewrite !ren_scalar in A4 by assumption. exact A4.
      + assert (S2 : scalar (get_field_value t w f) = false) by (rewrite <- Sc, <- A4, Sc; exact S1).
        rewrite (unset_default m f _ Hm Hf Hh eq_refl S1). symmetry. rewrite Ed in Hf. now apply (unset_default w f).
  Qed.

  Lemma plain_back v : plain v = true -> (forall w k, kindD k -> ok_elem t v k = true -> ok_elem t w k = true -> agree t' (ren rho v) (ren rho w) -> agree t v w) -> ren_back v.
  Proof.
    intros Hp H w. split; [intros k; apply H|]. intros f f' Hl Hf Hsh Ho Ho' A.
    rewrite ok_field_plain in Ho by exact Hp. rewrite !andb_true_iff in Ho.
    assert (Hp' : plain w = true).
    { rewrite <- (ren_plain rho w). rewrite <- (ren_plain rho v) in Hp. revert A Hp.
      generalize (ren rho v), (ren rho w). intros a b A Hp. destruct A; try discriminate Hp; [|reflexivity]. exact Hp. }
    rewrite ok_field_plain in Ho' by exact Hp'. rewrite !andb_true_iff in Ho'.
    apply (H w (fd_kind f)); [eapply like_kindD; apply (fl_kind _ _ _ _ _ _ Hl)|tauto|tauto|exact A].
  Qed.
  Lemma ren_back_all v : ren_back v.
  Proof.
    induction v as [b|z|z|n|n|n|n|s|s|z|d fs IH|vs IH|kvs IH] using value_ind';
      try (intros w; split; intros; eapply scalar_back; try eassumption; reflexivity).
    - apply plain_back; [reflexivity|]. intros w k HD Ho Ho' A. rewrite ren_message in A.
      rewrite ok_elem_msg in Ho. destruct (kind_msg k) as [i|] eqn:Ek; [|discriminate Ho].
      unfold kindD in HD. rewrite Ek in HD. rewrite andb_true_iff, ok_msg_iff in Ho. destruct Ho as [Hd Hm]. apply Nat.eqb_eq in Hd. cbn [dm_desc] in Hd. subst i.
      assert (exists w', w = VMessage w') as [w' ->].
      { destruct w as [| | | | | | | | | |w'| |]; inversion A; try discriminate; eauto. }
      rewrite ren_message in A. rewrite ok_elem_msg, Ek in Ho'. rewrite andb_true_iff, ok_msg_iff in Ho'. destruct Ho' as [Hd' Hm'].
      apply Nat.eqb_eq in Hd'. apply message_back; auto.
    - intros w. split; [intros k _ Ho; discriminate Ho|]. intros f f' Hl Hf Hsh Ho Ho' A.
      cbn [ren] in A. inversion A as [? Hs|? l F E1 E2| |]; subst; [discriminate Hs|].
      destruct w as [| | | | | | | | | |[]|ws|]; try discriminate E2. cbn [ren] in E2. injection E2 as ->.
      cbn [ok_field] in Ho, Ho'. rewrite andb_true_iff, forallb_forall in Ho, Ho'. destruct Ho as [_ Ho]. destruct Ho' as [_ Ho'].
      apply agree_list. clear A. revert ws F Ho'. rewrite Forall_forall in IH. revert Ho IH.
      induction vs as [|v vs IHl]; intros Ho IH ws F Ho'.
      + inversion F as [Ew|]. symmetry in Ew. destruct ws; [constructor|]. cbn in *. discriminate.
      + destruct ws as [|x ws]; [inversion F|]. cbn [map] in F. inversion F; subst. constructor.
        * apply (proj1 (IH v (or_introl eq_refl) x) (fd_kind f)); auto.
          -- eapply like_kindD; apply (fl_kind _ _ _ _ _ _ Hl).
          -- apply Ho; left; reflexivity.
          -- apply Ho'; left; reflexivity.
        * apply IHl; auto; intros; [apply Ho|apply IH|apply Ho']; right; assumption.
    - intros w. split; [intros k _ Ho; discriminate Ho|]. intros f f' Hl Hf Hsh Ho Ho' A.
      cbn [ren] in A. inversion A as [? Hs| |? l H1 H2 H3 E1 E2|]; subst; [discriminate Hs|].
      destruct w as [| | | | | | | | | |[]| |ws]; try discriminate E2. cbn [ren] in E2. injection E2 as ->.
      cbn [ok_field] in Ho, Ho'.
      destruct (kind_msg (fd_kind f)) as [e|] eqn:Ek; [|discriminate Ho]. destruct (fd_is_map f); [|discriminate Ho].
      destruct (entry_key t e) as [kf|] eqn:Ekf; [|discriminate Ho]. destruct (entry_value t e) as [vf|] eqn:Evf; [|discriminate Ho].
      rewrite andb_true_iff, forallb_forall in Ho, Ho'. destruct Ho as [_ Ho]. destruct Ho' as [_ Ho'].
      destruct (like_msg_in t t' D rho _ _ _ (fl_kind _ _ _ _ _ _ Hl) Ek) as [He _].
      unfold entry_value in Evf. destruct (like_field_some t t' D rho Hw Hw' C _ _ _ He Evf) as (vf' & _ & Lv).
      rewrite !map_length in H1. apply agree_map; [exact H1| |].
      + intros k. specialize (H2 k). rewrite !map_get_ren in H2. destruct (map_get k kvs), (map_get k ws); cbn in H2; split; intros; try congruence.
        * destruct H2 as [_ H2]. discriminate (H2 eq_refl).
        * destruct H2 as [H2 _]. discriminate (H2 eq_refl).
      + intros k a b Ha Hb. specialize (H3 k). rewrite !map_get_ren, Ha, Hb in H3. cbn in H3. specialize (H3 _ _ eq_refl eq_refl).
        apply map_get_In in Ha. apply map_get_In in Hb. rewrite Forall_forall in IH.
        specialize (Ho _ Ha). specialize (Ho' _ Hb). rewrite andb_true_iff in Ho, Ho'. cbn [fst snd] in *.
        apply (proj1 (IH _ Ha b) (fd_kind vf)); try tauto. eapply like_kindD; apply (fl_kind _ _ _ _ _ _ Lv).
  Qed.
  Lemma agree_ren_back m w : D (dm_desc m) = true -> ok_msg t m = true -> ok_msg t w = true -> dm_desc m = dm_desc w ->
    agree_msg t' (ren_msg rho m) (ren_msg rho w) -> agree_msg t m w.
  Proof.
    intros HD H1 H2 Ed A. apply message_back; auto; try (now apply ok_msg_iff).
    apply Forall_forall. intros [k [|v|us]] _; cbn; auto. apply ren_back_all.
  Qed.
End Ren.
