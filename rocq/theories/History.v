(** Histories of API calls on one DynamicMessage (for C11 and C16). *)
From Verif Require Import Base BaseProofs Wire WireProofs LoopProofs Unknown UnknownProofs Value Descr
  Fields Codec DescrOk DescrProofs FieldsProofs LenProofs MergeProofs.
Open Scope N_scope.

(** [f] is a field or an extension of the message's type *)
Definition field_of (t : tables) (m : dynmsg) (f : fdl) : Prop :=
  find_desc t (dm_desc m) (fd_number f) = Some f.

(** One call of the public API (dynamic/mod.rs:121-520, dynamic/message.rs:35-80).
    [call t V W m m']: some call takes [m] to [m'], where every value passed in
    satisfies [V] for its field, and every write through a mutable reference
    takes the old value to a new one related by [W].  Failing calls (an
    InvalidType or NotFound error, a decode error) are calls too; a call that
    panics has no outcome. *)
Inductive call (t : tables) (V : fdl -> value -> Prop) (W : fdl -> value -> value -> Prop)
  : dynmsg -> dynmsg -> Prop :=
| c_set m f v e m' : field_of t m f -> V f v -> try_set_field t m f v = (e, m') -> call t V W m m'
| c_set_number m n v e m' :
    (forall f, get_field t (dm_desc m) n = Some f -> V f v) ->
    try_set_field_by_number t m n v = (e, m') -> call t V W m m'
| c_set_name m (s : str) v e m' :
    (forall f, get_field_by_name t (dm_desc m) s = Some f -> V f v) ->
    try_set_field_by_name t m s v = (e, m') -> call t V W m m'
| c_set_ext m f v : get_ext t (dm_desc m) (fd_number f) = Some f -> V f v -> call t V W m (set_extension m f v)
| c_mut m f g : field_of t m f -> W f (get_field_value t m f) (g (get_field_value t m f)) ->
    call t V W m (field_mut t m f g)
| c_mut_number m n g m' :
    (forall f, get_field t (dm_desc m) n = Some f -> W f (get_field_value t m f) (g (get_field_value t m f))) ->
    field_by_number_mut t m n g = Some m' -> call t V W m m'
| c_mut_name m s g m' :
    (forall f, get_field_by_name t (dm_desc m) s = Some f -> W f (get_field_value t m f) (g (get_field_value t m f))) ->
    field_by_name_mut t m s g = Some m' -> call t V W m m'
| c_clear m f : field_of t m f -> call t V W m (clear_field m f)
| c_clear_number m n : call t V W m (clear_field_by_number t m n)
| c_clear_name m s : call t V W m (clear_field_by_name t m s)
| c_take m f o m' : field_of t m f -> take_field t m f = (o, m') -> call t V W m m'
| c_take_number m n o m' : take_field_by_number t m n = (o, m') -> call t V W m m'
| c_take_name m s o m' : take_field_by_name t m s = (o, m') -> call t V W m m'
| c_fields_mut m g : (forall f v, field_of t m f -> W f v (g f v)) ->
    call t V W m (with_fields m (fs_fields_mut t (dm_desc m) g (dm_fields m)))
| c_extensions_mut m g : (forall f v, field_of t m f -> W f v (g f v)) ->
    call t V W m (with_fields m (fs_extensions_mut t (dm_desc m) g (dm_fields m)))
| c_take_fields m l m' : msg_take_fields t m = (l, m') -> call t V W m m'
| c_take_extensions m l m' : msg_take_extensions t m = (l, m') -> call t V W m m'
| c_take_unknown (m : dynmsg) l m' : msg_take_unknown_fields m = (l, m') -> call t V W m m'
| c_drain (m : dynmsg) (p : N -> bool) : (* a draining iterator dropped part-way: any set of entries is taken *)
    call t V W m (with_fields m (map (fun kv => if p (fst kv) then (fst kv, Taken) else kv) (dm_fields m)))
| c_clear_all m : call t V W m (msg_clear m)
| c_merge m b m' r : bytes_ok b -> msg_merge t m b = DOk m' r -> call t V W m m'
| c_merge_failed m b e m' : bytes_ok b -> msg_merge t m b = DErr e m' -> call t V W m m'.

(** any number of calls, starting from an empty message *)
Inductive history (t : tables) (V : fdl -> value -> Prop) (W : fdl -> value -> value -> Prop) (d : nat)
  : dynmsg -> Prop :=
| h_new : history t V W d (new_msg d)
| h_call m m' : history t V W d m -> call t V W m m' -> history t V W d m'.

Section History.
  Variable t : tables.
  Hypothesis Hwf : wf t.
  Let Ht : tables_ok t := proj1 Hwf.

  (** ** The oneof invariant needs no well-typedness *)
  Definition top_ok (d : nat) (m : dynmsg) : Prop :=
    dm_desc m = d /\ bt_sorted (dm_fields m) /\ oneofs_ok t d (dm_fields m).

  Lemma assigned_oneof d fs f v fs' :
    oneofs_ok t d fs -> find_desc t d (fd_number f) = Some f -> assigned f v fs fs' -> oneofs_ok t d fs'.
  Proof.
    intros H3 Hf [Hs Hg] n g v0 nums k w Hn Hgf Ho Hk Hne Hc.
    rewrite Hg in Hn, Hc.
    destruct (n =? fd_number f) eqn:En.
    - assert (n = fd_number f) by lia. subst n.
      unfold find_desc in Hf. rewrite Hgf in Hf. injection Hf as ->.
      replace (k =? fd_number f) with false in Hc by lia.
      assert (Sb : siblingb f k = true) by (apply siblingb_ok; exists nums; auto).
      rewrite Sb in Hc. discriminate.
    - destruct (siblingb f n) eqn:Es; [discriminate|].
      destruct (k =? fd_number f) eqn:Ek.
      + assert (k = fd_number f) by lia. subst k.
        destruct (oneof_siblings _ _ _ _ _ _ Ht Hgf Ho Hk) as (f' & E1 & E2).
        unfold find_desc in Hf. rewrite E1 in Hf. injection Hf as ->.
        apply siblingb_nok in Es. apply Es. exists nums. split; [exact E2|].
        split; [|lia]. eapply oneof_self; eassumption.
      + destruct (siblingb f k); [discriminate|].
        exact (H3 n g v0 nums k w Hn Hgf Ho Hk Hne Hc).
  Qed.

  (** fewer values stored *)
  Lemma oneof_sub d fs fs' :
    oneofs_ok t d fs -> (forall k v, bt_get k fs' = Some (SVal v) -> exists w, bt_get k fs = Some (SVal w)) ->
    oneofs_ok t d fs'.
  Proof.
    intros H Hsub n g v nums k w Hn Hg Ho Hk Hne Hc.
    destruct (Hsub _ _ Hn) as [v1 E1]. destruct (Hsub _ _ Hc) as [w1 E2]. exact (H _ _ _ _ _ _ E1 Hg Ho Hk Hne E2).
  Qed.
  Lemma clear_sub f (fs : fieldset) k v : bt_get k (fs_clear f fs) = Some (SVal v) -> exists w, bt_get k fs = Some (SVal w).
  Proof. rewrite clear_get. destruct (k =? fd_number f); [discriminate|]. eauto. Qed.

  Definition keeps (h : N * slot value -> N * slot value) : Prop :=
    forall kv, fst (h kv) = fst kv /\ forall v, snd (h kv) = SVal v -> exists w, snd kv = SVal w.
  Lemma map_top d m h : keeps h -> top_ok d m -> top_ok d (with_fields m (map h (dm_fields m))).
  Proof.
    intros Hh (Hd & Hs & Ho). split; [exact Hd|]. cbn [with_fields dm_fields]. split.
    - apply map_slot_sorted; [|exact Hs]. intros kv. apply Hh.
    - apply (oneof_sub d (dm_fields m)); [exact Ho|]. intros k v.
      rewrite map_slot_get by (intros kv; apply Hh).
      destruct (bt_get k (dm_fields m)) as [s|]; [|discriminate]. intros [= E].
      destruct (proj2 (Hh (k, s)) v E) as [w Hw]. exists w. cbn in Hw. rewrite Hw. reflexivity.
  Qed.

  Lemma set_top d m f v : top_ok d m -> find_desc t d (fd_number f) = Some f ->
    top_ok d (with_fields m (fs_set f v (dm_fields m))).
  Proof.
    intros (Hd & Hs & Ho) Hf. pose proof (assigned_set f v _ Hs) as A. split; [exact Hd|]. split; [apply A|].
    eapply assigned_oneof; eassumption.
  Qed.
  Lemma put_top d m f v : top_ok d m -> find_desc t d (fd_number f) = Some f ->
    top_ok d (with_fields m (fs_put f v (fs_get_mut t f (dm_fields m)))).
  Proof.
    intros (Hd & Hs & Ho) Hf. pose proof (assigned_put t f v _ Hs) as A. split; [exact Hd|]. split; [apply A|].
    eapply assigned_oneof; eassumption.
  Qed.
  Lemma remove_top d m f : top_ok d m -> top_ok d (with_fields m (bt_remove (fd_number f) (dm_fields m))).
  Proof.
    intros (Hd & Hs & Ho). split; [exact Hd|]. split; [apply bt_remove_sorted, Hs|].
    apply (oneof_sub d (dm_fields m)); [exact Ho|]. exact (clear_sub f (dm_fields m)).
  Qed.
  Lemma unknown_top d m n u fs : top_ok d m -> fs_add_unknown n u (dm_fields m) = Ok fs -> top_ok d (with_fields m fs).
  Proof.
    intros (Hd & Hs & Ho) H. split; [exact Hd|]. split; [eapply add_unknown_sorted; eassumption|].
    apply (oneof_sub d (dm_fields m)); [exact Ho|]. intros k v Hk. cbn [with_fields dm_fields] in Hk.
    unfold fs_add_unknown in H.
    assert (E : exists s, (forall x, s <> SVal x) /\ fs = bt_set n s (dm_fields m)).
    { destruct (bt_get n (dm_fields m)) as [[|?|us]|]; try discriminate H; injection H as <-;
        eexists; (split; [|reflexivity]); discriminate. }
    destruct E as (s & Hns & ->). destruct (N.eq_dec k n) as [->|Hne].
    - rewrite bt_get_set_same in Hk. injection Hk as ->. destruct (Hns v eq_refl).
    - rewrite bt_get_set_other in Hk by exact Hne. eauto.
  Qed.

  Lemma step_top mv ctx d m num w b : top_ok d m ->
    match merge_msg_field t mv ctx m num w b with DOk m' _ | DErr _ m' => top_ok d m' | _ => True end.
  Proof.
    intros Htop. unfold merge_msg_field. pose proof Htop as (Hd & _). rewrite Hd.
    destruct (find_desc t d num) as [f|] eqn:Ef.
    - rewrite <- (find_desc_number _ _ _ _ Ht Ef) in Ef. unfold merge_into.
      destruct (mv f _ w ctx b); auto; apply put_top; assumption.
    - destruct (uf_decode_value ctx num w b) as [[u r]| | |]; auto.
      destruct (fs_add_unknown num u (dm_fields m)) eqn:E; auto. eapply unknown_top; eassumption.
  Qed.
  Lemma stream_top mv ctx d k : forall m b, top_ok d m ->
    match stream_loop k (merge_msg_field t mv ctx) m b with DOk m' _ | DErr _ m' => top_ok d m' | _ => True end.
  Proof.
    induction k as [|k IH]; intros m b Hm; destruct b as [|x b]; cbn [stream_loop]; auto.
    destruct (decode_key (x :: b)) as [[[n w] r]| | |]; auto.
    pose proof (step_top mv ctx d m n w r Hm) as S.
    destruct (merge_msg_field t mv ctx m n w r); auto. apply IH, S.
  Qed.

  Lemma by_name_field d s f : get_field_by_name t d s = Some f -> find_desc t d (fd_number f) = Some f.
  Proof. intros H. unfold find_desc. rewrite (proj2 (get_field_by_name_number _ _ _ _ Ht H)). reflexivity. Qed.
  Lemma by_number_field d n f : get_field t d n = Some f -> find_desc t d (fd_number f) = Some f.
  Proof. intros H. unfold find_desc. rewrite (get_field_number _ _ _ _ Ht H), H. reflexivity. Qed.

  Ltac split_slot := let kv := fresh in intros kv; destruct kv as [? []]; cbn [fst snd];
    repeat (match goal with |- context [match ?x with _ => _ end] => destruct x end);
    cbn [fst snd]; (split; [reflexivity|]); intros; try discriminate; eauto.

  Lemma call_top V W d m m' : call t V W m m' -> top_ok d m -> top_ok d m'.
  Proof.
    intros C Hm. pose proof Hm as (Hd & _).
    assert (Hset : forall m f v e m', top_ok d m -> find_desc t d (fd_number f) = Some f ->
              try_set_field t m f v = (e, m') -> top_ok d m').
    { intros m0 f v e m0' Hm0 Hf H. unfold try_set_field in H.
      destruct (is_valid_for t f v); injection H as <- <-; [apply set_top|]; assumption. }
    assert (Hmut : forall m f g, top_ok d m -> find_desc t d (fd_number f) = Some f -> top_ok d (field_mut t m f g)).
    { intros m0 f g Hm0 Hf. unfold field_mut. cbv zeta. apply put_top; assumption. }
    assert (Htake : forall m f o m', top_ok d m -> take_field t m f = (o, m') -> top_ok d m').
    { intros m0 f o m0' Hm0 H. unfold take_field, fs_take in H. injection H as <- <-. apply remove_top, Hm0. }
    destruct C; unfold field_of in *; rewrite ?Hd in *.
    - eauto.
    - unfold try_set_field_by_number in H0. rewrite Hd in H0. destruct (get_field t d n) eqn:E.
      + eapply Hset; [exact Hm|eapply by_number_field, E|exact H0].
      + injection H0 as <- <-. exact Hm.
    - unfold try_set_field_by_name in H0. rewrite Hd in H0. destruct (get_field_by_name t d s) eqn:E.
      + eapply Hset; [exact Hm|eapply by_name_field, E|exact H0].
      + injection H0 as <- <-. exact Hm.
    - apply set_top; [exact Hm|]. unfold find_desc. rewrite H.
      destruct (get_field t d (fd_number f)) eqn:E; [|reflexivity].
      exfalso. pose proof (field_ext_disjoint _ _ _ _ Hwf H) as X. congruence.
    - apply Hmut; assumption.
    - unfold field_by_number_mut in H0. rewrite Hd in H0. destruct (get_field t d n) eqn:E; [|discriminate].
      injection H0 as <-. apply Hmut; [exact Hm|eapply by_number_field, E].
    - unfold field_by_name_mut in H0. rewrite Hd in H0. destruct (get_field_by_name t d s) eqn:E; [|discriminate].
      injection H0 as <-. apply Hmut; [exact Hm|eapply by_name_field, E].
    - apply remove_top, Hm.
    - unfold clear_field_by_number. destruct (get_field t (dm_desc m) n); [apply remove_top, Hm|exact Hm].
    - unfold clear_field_by_name. destruct (get_field_by_name t (dm_desc m) s); [apply remove_top, Hm|exact Hm].
    - eauto.
    - unfold take_field_by_number in H. destruct (get_field t (dm_desc m) n); [eauto|injection H as <- <-; exact Hm].
    - unfold take_field_by_name in H. destruct (get_field_by_name t (dm_desc m) s); [eauto|injection H as <- <-; exact Hm].
    - apply map_top; [|exact Hm]. split_slot.
    - apply map_top; [|exact Hm]. split_slot.
    - unfold msg_take_fields, fs_take_fields in H. injection H as <- <-. apply map_top; [|exact Hm]. split_slot.
    - unfold msg_take_extensions, fs_take_extensions in H. injection H as <- <-. apply map_top; [|exact Hm]. split_slot.
    - unfold msg_take_unknown_fields, fs_take_unknown in H. injection H as <- <-. apply map_top; [|exact Hm]. split_slot.
    - apply map_top; [|exact Hm]. split_slot.
    - split; [exact Hd|]. split; [constructor|]. intros n g v nums k w Hn. discriminate Hn.
    - pose proof (stream_top (merge_value (merge_fuel b) t) ctx0 d (length b) m b Hm) as S.
      unfold msg_merge, msg_merge_fuel in H0. rewrite H0 in S. exact S.
    - pose proof (stream_top (merge_value (merge_fuel b) t) ctx0 d (length b) m b Hm) as S.
      unfold msg_merge, msg_merge_fuel in H0. rewrite H0 in S. exact S.
  Qed.

  Lemma history_top V W d m : history t V W d m -> top_ok d m.
  Proof.
    intros H. induction H as [|m m' H IH C].
    - split; [reflexivity|]. split; [constructor|]. intros n g v nums k w Hn. discriminate Hn.
    - eapply call_top; eassumption.
  Qed.

  (** ** Well-typed histories keep whole messages valid *)
  Definition vok (f : fdl) (v : value) : Prop := ok_field t f v = true.
  Definition wok (f : fdl) (v v' : value) : Prop := ok_field t f v = true -> ok_field t f v' = true.

  Lemma map_ok m h : keeps h ->
    (forall k s, bt_get k (dm_fields m) = Some s -> ok_slot t (dm_desc m) (k, s) = true ->
       ok_slot t (dm_desc m) (h (k, s)) = true) ->
    msg_ok t m -> msg_ok t (with_fields m (map h (dm_fields m))).
  Proof.
    intros Hh Hp [H1 H2 H3 H4].
    destruct (map_top (dm_desc m) m h Hh (conj eq_refl (conj H2 H3))) as (E1 & E2 & E3).
    constructor; [exact H1|exact E2|exact E3|].
    intros n s Hn. cbn [with_fields dm_desc dm_fields] in *.
    rewrite map_slot_get in Hn by (intros kv; apply Hh).
    destruct (bt_get n (dm_fields m)) as [s0|] eqn:E; [|discriminate]. injection Hn as <-.
    specialize (Hp _ _ E (H4 _ _ E)). pose proof (proj1 (Hh (n, s0))) as En. cbn in En.
    destruct (h (n, s0)) as [n' s']. cbn in En |- *. subst n'. exact Hp.
  Qed.
  Lemma remove_ok m f : msg_ok t m -> msg_ok t (with_fields m (bt_remove (fd_number f) (dm_fields m))).
  Proof.
    intros [H1 H2 H3 H4].
    destruct (remove_top (dm_desc m) m f (conj eq_refl (conj H2 H3))) as (E1 & E2 & E3).
    constructor; [exact H1|exact E2|exact E3|].
    intros n s Hn. cbn [with_fields dm_desc dm_fields] in *.
    change (bt_get n (fs_clear f (dm_fields m)) = Some s) in Hn. rewrite clear_get in Hn.
    destruct (n =? fd_number f); [discriminate|]. exact (H4 _ _ Hn).
  Qed.

  Lemma call_ok m m' : call t vok wok m m' -> msg_ok t m -> msg_ok t m'.
  Proof.
    intros C Hm. pose proof (mo_sorted _ _ Hm) as Hs.
    assert (Hset : forall m f v, msg_ok t m -> find_desc t (dm_desc m) (fd_number f) = Some f -> vok f v ->
              msg_ok t (with_fields m (fs_set f v (dm_fields m)))).
    { intros m0 f v Hm0 Hf Hv. destruct m0 as [d fs].
      exact (assigned_ok t d fs f v _ Ht Hm0 Hf Hv (assigned_set f v fs (mo_sorted _ _ Hm0))). }
    assert (Htry : forall m f v e m', msg_ok t m -> find_desc t (dm_desc m) (fd_number f) = Some f -> vok f v ->
              try_set_field t m f v = (e, m') -> msg_ok t m').
    { intros m0 f v e m0' Hm0 Hf Hv H. unfold try_set_field in H.
      destruct (is_valid_for t f v); injection H as <- <-; [apply Hset|]; assumption. }
    assert (Hmut : forall m f g, msg_ok t m -> find_desc t (dm_desc m) (fd_number f) = Some f ->
              wok f (get_field_value t m f) (g (get_field_value t m f)) -> msg_ok t (field_mut t m f g)).
    { intros m0 f g Hm0 Hf Hw. unfold field_mut. cbv zeta. destruct m0 as [d fs]. cbn [with_fields dm_desc dm_fields] in *.
      rewrite get_mut_get_self.
      eapply (assigned_ok t d fs f); [exact Ht|exact Hm0|exact Hf| |exact (assigned_put t f _ fs (mo_sorted _ _ Hm0))].
      apply Hw. exact (stored_ok t Hwf d fs f Hm0 Hf). }
    assert (Htake : forall m f o m', msg_ok t m -> take_field t m f = (o, m') -> msg_ok t m').
    { intros m0 f o m0' Hm0 H. unfold take_field, fs_take in H. injection H as <- <-. apply remove_ok, Hm0. }
    assert (Hmerge : forall m b, bytes_ok b -> msg_ok t m ->
              match msg_merge t m b with DOk m' _ | DErr _ m' => msg_ok t m' | _ => True end).
    { intros m0 b Hb Hm0. unfold msg_merge.
      pose proof (msg_merge_good t Hwf (merge_fuel b) (dm_desc m0) (Nat.max (msg_depth m0) (S ctx0)) m0 b) as G.
      specialize (G ltac:(unfold merge_fuel; change ctx0 with 100%nat; lia)).
      specialize (G (Nat.le_max_r _ _) Hb (conj eq_refl (conj Hm0 (Nat.le_max_l _ _)))).
      destruct (msg_merge_fuel (merge_fuel b) t m0 b); [|apply G|exact I|exact I].
      apply G. }
    destruct C; unfold field_of in *.
    - eapply Htry; eassumption.
    - unfold try_set_field_by_number in H0. destruct (get_field t (dm_desc m) n) eqn:E.
      + eapply Htry; [exact Hm|eapply by_number_field, E|apply H; reflexivity|exact H0].
      + injection H0 as <- <-. exact Hm.
    - unfold try_set_field_by_name in H0. destruct (get_field_by_name t (dm_desc m) s) eqn:E.
      + eapply Htry; [exact Hm|eapply by_name_field, E|apply H; reflexivity|exact H0].
      + injection H0 as <- <-. exact Hm.
    - apply Hset; [exact Hm| |exact H0]. unfold find_desc. rewrite H.
      destruct (get_field t (dm_desc m) (fd_number f)) eqn:E; [|reflexivity].
      exfalso. pose proof (field_ext_disjoint _ _ _ _ Hwf H) as X. congruence.
    - apply Hmut; assumption.
    - unfold field_by_number_mut in H0. destruct (get_field t (dm_desc m) n) eqn:E; [|discriminate].
      injection H0 as <-. apply Hmut; [exact Hm|eapply by_number_field, E|apply H; reflexivity].
    - unfold field_by_name_mut in H0. destruct (get_field_by_name t (dm_desc m) s) eqn:E; [|discriminate].
      injection H0 as <-. apply Hmut; [exact Hm|eapply by_name_field, E|apply H; reflexivity].
    - apply remove_ok, Hm.
    - unfold clear_field_by_number. destruct (get_field t (dm_desc m) n); [apply remove_ok, Hm|exact Hm].
    - unfold clear_field_by_name. destruct (get_field_by_name t (dm_desc m) s); [apply remove_ok, Hm|exact Hm].
    - eauto.
    - unfold take_field_by_number in H. destruct (get_field t (dm_desc m) n); [eauto|injection H as <- <-; exact Hm].
    - unfold take_field_by_name in H. destruct (get_field_by_name t (dm_desc m) s); [eauto|injection H as <- <-; exact Hm].
    - apply map_ok; [split_slot| |exact Hm]. intros k s Hk Hok. destruct s as [|v|us]; auto.
      cbn [snd fst]. destruct (get_field t (dm_desc m) k) as [f|] eqn:E; auto.
      destruct (fd_has t f v); auto. unfold ok_slot in *. cbn [fst snd] in *.
      unfold find_desc in *. rewrite E in *. apply H; [|exact Hok].
      rewrite (get_field_number _ _ _ _ Ht E), E. reflexivity.
    - apply map_ok; [split_slot| |exact Hm]. intros k s Hk Hok. destruct s as [|v|us]; auto.
      cbn [snd fst]. destruct (get_ext t (dm_desc m) k) as [f|] eqn:E; auto.
      destruct (fd_has t f v); auto. unfold ok_slot in *. cbn [fst snd] in *.
      assert (Ef : find_desc t (dm_desc m) k = Some f).
      { unfold find_desc. rewrite (field_ext_disjoint _ _ _ _ Hwf E). exact E. }
      rewrite Ef in *. apply H; [|exact Hok]. rewrite (find_desc_number _ _ _ _ Ht Ef). exact Ef.
    - unfold msg_take_fields, fs_take_fields in H. injection H as <- <-. apply map_ok; [split_slot| |exact Hm].
      intros k s Hk Hok. destruct s as [|v|us]; auto. cbn [snd fst].
      destruct (get_field t (dm_desc m) k); auto. destruct (fd_has _ _ _); auto.
    - unfold msg_take_extensions, fs_take_extensions in H. injection H as <- <-. apply map_ok; [split_slot| |exact Hm].
      intros k s Hk Hok. destruct s as [|v|us]; auto. cbn [snd fst].
      destruct (get_ext t (dm_desc m) k); auto. destruct (fd_has _ _ _); auto.
    - unfold msg_take_unknown_fields, fs_take_unknown in H. injection H as <- <-. apply map_ok; [split_slot| |exact Hm].
      intros k s Hk Hok. destruct s as [|v|us]; auto.
    - apply map_ok; [split_slot| |exact Hm]. intros k s Hk Hok. cbn [fst]. destruct (p k); auto.
    - exact (new_msg_ok t (dm_desc m) (mo_desc _ _ Hm)).
    - pose proof (Hmerge m b H Hm) as S. rewrite H0 in S. exact S.
    - pose proof (Hmerge m b H Hm) as S. rewrite H0 in S. exact S.
  Qed.

  Lemma history_ok d m : (d < length (t_messages t))%nat -> history t vok wok d m -> ok_msg t m = true.
  Proof.
    intros Hd H. apply ok_msg_iff. induction H as [|m m' H IH C].
    - apply new_msg_ok, Hd.
    - eapply call_ok; eassumption.
  Qed.
End History.
