(** C66: once the depth is enough, more of it changes nothing. *)
From Coq Require Import String.
From Verif Require Import Base BaseProofs Wire WireProofs Unknown UnknownProofs Value Descr Fields Codec DescrOk DescrProofs FieldsProofs
  MergeProofs ItemRound WireSpec Float TextFormat TextLexProofs TextRound JsonNumbers JsonMeaning JsonWritten JsonWrittenScalars JsonWrittenValue
  JsonWrittenMain JsonWrittenAll TextWritten TextWrittenWords TextWrittenUnknown TextWrittenRows TextWrittenAll Prop_Decode EncBytes.
Open Scope list_scope.
Open Scope N_scope.

Lemma same_or_fuel {A} (g g' : nat -> A -> res bytes) l :
  (forall a, In a l -> (forall i, exists b, g i a = Ok b) \/ forall i, g i a = Fuel) ->
  (forall a, In a l -> (forall i, g i a = Fuel) \/ forall i, g' i a = g i a) ->
  (forall i sep, rjoin sep (map (g i) l) = Fuel) \/ forall i, map (g' i) l = map (g i) l.
Proof.
  induction l as [|a l IH]; intros H1 H2; [now right|]. destruct (H2 a (or_introl eq_refl)) as [F|F].
  - left. intros i sep. cbn [map]. destruct l as [|b l]; [cbn; apply F|]. rewrite rjoin_cons by discriminate. rewrite F. reflexivity.
  - destruct IH as [G|G]; [intros; apply H1; now right|intros; apply H2; now right| |right; intros i; cbn [map]; now rewrite F, G].
    left. intros i sep. cbn [map]. destruct l as [|b l]; [discriminate (G i sep)|]. rewrite rjoin_cons by discriminate. rewrite G.
    destruct (H1 a (or_introl eq_refl)) as [Q|Q]; [destruct (Q i) as [x ->]; reflexivity|rewrite Q; reflexivity].
Qed.

Section Deeper.
  Variables (E : text_externs) (t : tables) (o : topt).
  Hypothesis Hwf : wf t.
  Section Two.
    Variables any any' : nat -> dynmsg -> option (res bytes).
    Hypothesis Hany : any_good E t o any.
    Hypothesis Hdeep : forall m, ok_msg t m = true -> (forall i, any i m = Some Fuel) \/ forall i, any' i m = any i m.
    Let fmt := fmt_value E t o any.
    Let fmt' := fmt_value E t o any'.
    Let Same v := forall k, tfits t v k -> (forall i, fmt v i (Some k) = Fuel) \/ forall i, fmt' v i (Some k) = fmt v i (Some k).

    Lemma ok_or_fuel v k : tfits t v k -> (forall i, exists b, fmt v i (Some k) = Ok b) \/ forall i, fmt v i (Some k) = Fuel.
    Proof. intros Hk. destruct (value_good E t o Hwf any Hany v k Hk) as [(x & _ & [H _])|H]; [left; eauto|now right]. Qed.
    Lemma list_same l : Forall Same l -> Same (VList l).
    Proof.
      intros Hl k Hk. cbn [tfits] in Hk. rewrite Forall_forall in Hl, Hk.
      destruct (same_or_fuel (fun i v => fmt v i (Some k)) (fun i v => fmt' v i (Some k)) l) as [F|F].
      - intros v Hin. apply ok_or_fuel, elem_tfits. now apply Hk.
      - intros v Hin. apply (Hl v Hin), elem_tfits. now apply Hk.
      - left. intros i. unfold fmt in *. cbn [fmt_value]. rewrite F. reflexivity.
      - right. intros i. unfold fmt, fmt' in *. cbn [fmt_value]. rewrite F. reflexivity.
    Qed.
    Lemma map_same kvs : Forall (fun kv => Same (snd kv)) kvs -> Same (VMap kvs).
    Proof.
      intros Hl k (e & kf & vf & K1 & K2 & K3). rewrite Forall_forall in Hl, K3.
      destruct (same_or_fuel (fmt_entry E t o any (fd_kind vf)) (fmt_entry E t o any' (fd_kind vf)) kvs) as [F|F].
      - intros kv Hin. destruct (ok_or_fuel (snd kv) (fd_kind vf)) as [Q|Q]; [apply elem_tfits, (K3 _ Hin)|left|right]; intros i; unfold fmt_entry; fold fmt.
        + destruct (Q i) as [b Qb], (Q (2 + i)%nat) as [b' Qb']. rewrite Qb, Qb'. unfold field_value. cbn [rbind]. destruct (o_pretty o); eauto.
        + rewrite !Q. unfold field_value. cbn [rbind]. now case (o_pretty o).
      - intros kv Hin. destruct (Hl _ Hin (fd_kind vf) (elem_tfits _ _ _ (proj2 (K3 _ Hin)))) as [Q|Q]; [left|right]; intros i; unfold fmt_entry; fold fmt fmt'.
        + rewrite !Q. unfold field_value. cbn [rbind]. now case (o_pretty o).
        + rewrite !Q. reflexivity.
      - left. intros i. unfold fmt. rewrite (map_eq E t o any k e vf kvs i K1 K2), F. reflexivity.
      - right. intros i. unfold fmt, fmt'. rewrite (map_eq E t o any k e vf kvs i K1 K2), (map_eq E t o any' k e vf kvs i K1 K2), F. reflexivity.
    Qed.
    Lemma flat_same v : flat v -> Same v.
    Proof.
      intros Hf. destruct v; try (intros k _; right; reflexivity).
      - destruct Hf.
      - destruct vs; [|destruct Hf]. apply list_same. constructor.
      - destruct kvs; [|destruct Hf]. apply map_same. constructor.
    Qed.
    Lemma msg_same m : ok_msg t m = true -> (forall n v, In (n, SVal v) (dm_fields m) -> Same v) ->
      (forall i, msg_fmt E t o any i m = Fuel) \/ forall i, msg_fmt E t o any' i m = msg_fmt E t o any i m.
    Proof.
      intros Ho Hs. destruct (Hdeep m Ho) as [D|D]; [left; intros i; unfold msg_fmt; now rewrite D|].
      destruct (Hany m Ho) as [[A _]|[(url & body & fs & _ & _ & _ & A)|A]].
      2:{ right. intros i. unfold msg_fmt. now rewrite D, A. }
      2:{ left. intros i. unfold msg_fmt. now rewrite A. }
      assert (A' : forall i, any' i m = None) by (intros i; now rewrite D).
      destruct (same_or_fuel (fmt_row E t o any) (fmt_row E t o any') (row_list t o m)) as [F|F].
      - intros r Hin. destruct (row_in t o Hwf m r Ho Hin) as [R1 _]. destruct r as [f v|f v|u]; cbn [row_fits] in R1.
        + destruct R1 as [_ R1]. destruct (ok_or_fuel v _ R1) as [Q|Q]; [left|right]; intros i; cbn [fmt_row]; fold fmt; [destruct (Q i) as [b ->]; eexists; reflexivity|now rewrite Q].
        + destruct (ok_or_fuel v _ R1) as [Q|Q]; [left|right]; intros i; cbn [fmt_row]; fold fmt; [destruct (Q i) as [b ->]; eexists; reflexivity|now rewrite Q].
        + left. intros i. destruct (unk_row E t o any u R1) as (x & _ & Hx). rewrite (Hx i). eauto.
      - intros r Hin. destruct (row_in t o Hwf m r Ho Hin) as [R1 R2]. destruct r as [f v|f v|u]; cbn [row_fits row_from] in R1, R2.
        + destruct R1 as [_ R1]. assert (Sv : Same v) by (destruct R2; [eapply Hs; eauto|now apply flat_same]).
          destruct (Sv _ R1) as [Q|Q]; [left|right]; intros i; cbn [fmt_row]; fold fmt fmt'; now rewrite Q.
        + assert (Sv : Same v) by (destruct R2; [eapply Hs; eauto|now apply flat_same]).
          destruct (Sv _ R1) as [Q|Q]; [left|right]; intros i; cbn [fmt_row]; fold fmt fmt'; now rewrite Q.
        + right. reflexivity.
      - left. intros i. unfold msg_fmt. rewrite A. apply F.
      - right. intros i. unfold msg_fmt. rewrite A, A', F. reflexivity.
    Qed.
    Lemma body_same m : ok_msg t m = true -> (forall n v, In (n, SVal v) (dm_fields m) -> Same v) ->
      (forall i k, fmt (VMessage m) i k = Fuel) \/ forall i k, fmt' (VMessage m) i k = fmt (VMessage m) i k.
    Proof.
      intros Ho Hs. unfold fmt, fmt'. assert (R : forall any i k, fmt_value E t o any (VMessage m) i k =
        match row_list t o m with [] => Ok [123; 125] | _ => braces o i (fun i => msg_fmt E t o any i m) end) by (intros; now apply value_rows).
      destruct (row_list t o m) as [|r l]; [right; intros; now rewrite !R|]. destruct (msg_same m Ho Hs) as [F|F]; [left|right]; intros i k; rewrite ?R; unfold braces; cbv beta.
      - rewrite !F. now case (o_pretty o).
      - now rewrite !F.
    Qed.
    Lemma value_same v : Same v.
    Proof.
      revert v. apply value_inside. intros v Hi. destruct v; try (apply flat_same; exact I).
      - intros k Hk. destruct (body_same m) as [H|H].
        + now apply elem_msg in Hk.
        + destruct m as [d fs]. intros n w Hw. exact (proj1 (inside_slot Same d fs n w Hi Hw)).
        + left. intros i. apply H.
        + right. intros i. apply H.
      - apply list_same. apply inside_list in Hi. eapply Forall_impl; [|exact Hi]. cbn. tauto.
      - apply map_same. apply inside_map in Hi. eapply Forall_impl; [|exact Hi]. cbn. tauto.
    Qed.
  End Two.

  Lemma fmt_any_eq n i m : fmt_any E t o (S n) i m =
    if negb (o_expand_any o) || negb (bytes_eqb (full_name t (dm_desc m)) any_name) then None
    else match as_any t m with
         | Ok None => None
         | Ok (Some (url, body)) => Some (let! b := field_value o (VMessage body) (fmt_value E t o (fmt_any E t o n) (VMessage body) i None) in Ok (91 :: url ++ 93 :: b))
         | Err _ => None
         | Panic => Some Panic
         | Fuel => Some Fuel
         end.
  Proof. reflexivity. Qed.
  Theorem fmt_any_deeper n : forall m, ok_msg t m = true -> (forall i, fmt_any E t o n i m = Some Fuel) \/ forall i, fmt_any E t o (S n) i m = fmt_any E t o n i m.
  Proof.
    induction n as [|n IH]; intros m Ho.
    - cbn [fmt_any]. destruct (negb _ || negb _); [right; reflexivity|left; reflexivity].
    - assert (G : (forall i, fmt_any E t o (S n) i m = Some Fuel) \/ (forall i, fmt_any E t o (S (S n)) i m = fmt_any E t o (S n) i m)); [|exact G].
      destruct (negb (o_expand_any o) || negb (bytes_eqb (full_name t (dm_desc m)) any_name)) eqn:Et; [right; intros i; rewrite !fmt_any_eq, Et; reflexivity|].
      destruct (as_any_cases t o Hwf m Ho) as [(url & body & Ea & X & Hb)|[Ea N]]; [|right; intros i; rewrite !fmt_any_eq, Et, Ea; reflexivity].
      destruct (body_same (fmt_any E t o n) (fmt_any E t o (S n)) (fmt_any_good E t o Hwf n) IH body Hb) as [F|F].
      + intros n' v _. exact (value_same (fmt_any E t o n) (fmt_any E t o (S n)) (fmt_any_good E t o Hwf n) IH v).
      + left. intros i. rewrite fmt_any_eq, Et, Ea, F. reflexivity.
      + right. intros i. rewrite (fmt_any_eq (S n)), (fmt_any_eq n), Et, Ea, F. reflexivity.
  Qed.
  Theorem to_text_deeper n m : ok_msg t m = true -> to_text E t o n m = Fuel \/ to_text E t o (S n) m = to_text E t o n m.
  Proof.
    intros Ho. unfold to_text. rewrite !(message_rows E t o Hwf) by exact Ho.
    destruct (msg_same (fmt_any E t o n) (fmt_any E t o (S n)) (fmt_any_good E t o Hwf n) (fmt_any_deeper n) m Ho) as [F|F]; [|left; apply F|right; apply F].
    intros n' v _. exact (value_same (fmt_any E t o n) (fmt_any E t o (S n)) (fmt_any_good E t o Hwf n) (fmt_any_deeper n) v).
  Qed.
End Deeper.
