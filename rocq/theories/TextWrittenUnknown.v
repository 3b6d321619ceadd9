(** C66: how unknown fields are written. *)
From Coq Require Import String.
From Verif Require Import Base BaseProofs Wire WireProofs LoopProofs Unknown UnknownProofs Value Descr Fields Codec DescrOk DescrProofs FieldsProofs
  MergeProofs ExtendProofs RestrictProofs RecordProofs WireSpec WireSpecScalars WireSpecRead Float TextFormat TextLexProofs JsonNumbers JsonMeaning
  JsonWritten JsonWrittenScalars TextWritten TextWrittenWords.
Open Scope list_scope.
Open Scope N_scope.

(** ** How far unknown fields can be nested in one *)
Fixpoint girth (u : ufield) : nat :=
  match u with
  | UGroup _ us => S (fold_right (fun u a => Nat.max (girth u) a) O us)
  | ULen _ bs => S (length bs)
  | _ => 1%nat
  end.
Definition girths (us : list ufield) : nat := fold_right (fun u a => Nat.max (girth u) a) O us.
Lemma girths_in us u : In u us -> (girth u <= girths us)%nat.
Proof. unfold girths. induction us as [|x us IH]; cbn; [contradiction|]. intros [->|H]; [lia|]. apply IH in H. lia. Qed.
Lemma girth_encode u : (girth u <= length (uf_encode u))%nat.
Proof.
  assert (K : forall n w, (1 <= length (encode_key n w))%nat).
  { intros n w. unfold encode_key. apply encode_varint_nonempty. }
  induction u as [n v|n bs|n bs|n fs IH|n bs] using ufield_ind'; cbn [girth uf_encode]; rewrite ?app_length; pose proof (K n WVarint); pose proof (K n W64); pose proof (K n WLen);
    pose proof (K n WStart); pose proof (K n WEnd); pose proof (K n W32); try lia.
  - unfold write_delimited. rewrite app_length. lia.
  - assert (G : (fold_right (fun u a => Nat.max (girth u) a) 0 fs <= length (flat_map uf_encode fs))%nat).
    { clear -IH. induction IH as [|u fs H F IH]; [cbn; lia|]. cbn [fold_right flat_map]. rewrite app_length. lia. }
    lia.
Qed.
Lemma girths_encode us : (girths us <= length (ufs_encode us))%nat.
Proof. unfold girths, ufs_encode. induction us as [|u us IH]; [cbn; lia|]. cbn [fold_right flat_map]. rewrite app_length. pose proof (girth_encode u). lia. Qed.

Lemma varint64_length n bs : varint64 n bs -> (1 <= length bs)%nat.
Proof. intros [H _]. destruct H; cbn; lia. Qed.
Lemma raw_girth :
  (forall n u pl, raw n u pl -> bytes_ok pl -> tag_ok (uf_number u) -> uf_ok u /\ (girth u <= length pl)%nat) /\
  (forall n us body, raws n us body -> bytes_ok body -> Forall uf_ok us /\ (girths us <= pred (length body))%nat).
Proof.
  apply (raw_both (fun n u pl _ => bytes_ok pl -> tag_ok (uf_number u) -> uf_ok u /\ (girth u <= length pl)%nat)
    (fun n us body _ => bytes_ok body -> Forall uf_ok us /\ (girths us <= pred (length body))%nat)).
  - intros n num v bs V Hb Ht. pose proof (varint64_length _ _ V). split; [split; [exact Ht|apply V]|cbn; lia].
  - intros n num bs L Hb Ht. split; [split; [exact Ht|auto]|cbn; lia].
  - intros n num body bs (lb & V & ->) Hb Ht. pose proof (varint64_length _ _ V). apply bytes_ok_app in Hb. split; [split; [exact Ht|apply Hb]|].
    cbn [girth]. rewrite app_length. lia.
  - intros n num us body e R IH [_ K] Hb Ht. pose proof (varint64_length _ _ K). apply bytes_ok_app in Hb. destruct (IH (proj1 Hb)) as [I1 I2].
    split; [apply uf_ok_group; auto|]. cbn [girth]. fold (girths us). rewrite app_length. lia.
  - intros n num bs L Hb Ht. split; [split; [exact Ht|auto]|cbn; lia].
  - intros n _. split; [constructor|cbn; lia].
  - intros n u us kb pl rest [K1 K2] Hu IHu R IH Hb. pose proof (varint64_length _ _ K2). apply bytes_ok_app in Hb. destruct Hb as [_ Hb]. apply bytes_ok_app in Hb.
    destruct (IHu (proj1 Hb)) as [U1 U2]; [exact K1|]. destruct (IH (proj2 Hb)) as [I1 I2]. split; [constructor; auto|].
    cbn [girths fold_right]. fold (girths us). rewrite !app_length. lia.
Qed.

(** ** Joining *)
Lemma rjoin_ok sep l : rjoin sep (map Ok l) = Ok (between sep l).
Proof.
  induction l as [|a [|b l] IH]; [reflexivity|reflexivity|]. change (rjoin sep (map Ok (a :: b :: l))) with (let! x := Ok a in let! y := rjoin sep (map Ok (b :: l)) in Ok (x ++ sep ++ y)).
  cbn [rbind]. rewrite IH. reflexivity.
Qed.

Section Unknown.
  Variable (t : tables) (o : topt).
  Let p := o_pretty o.
  Lemma pad_same : padding o = if p then s2b " " else [].
  Proof. unfold padding, p. destruct (o_pretty o); reflexivity. Qed.
  Lemma sep_same ind : separator o ind = if p then line ind else s2b ",".
  Proof. unfold separator, p. destruct (o_pretty o); reflexivity. Qed.
  (** the fields of a message in braces *)
  Lemma braces_lay ind fs : fs <> [] -> braces o ind (fun i => Ok (lay_fields p i fs)) = Ok (lay p ind (TBody fs)).
  Proof.
    intros Hn. unfold braces. destruct fs as [|f fs]; [contradiction|]. fold p. unfold lay_fields. destruct p; reflexivity.
  Qed.
  Lemma lay_words n s : lay_field p 0 (n, TWord s) = n ++ 58 :: padding o ++ s.
  Proof. unfold lay_field. cbn [fst snd colon lay]. rewrite pad_same. reflexivity. Qed.

  Definition unk_shown (n : nat) (u : ufield) : Prop :=
    exists f, (forall f', unknown_text u f' <-> f' = f) /\ forall ind, fmt_unknown o n ind u = Ok (lay_field p ind f).
  Lemma unks_shown n us : Forall (unk_shown n) us -> exists fs, (forall fs', unknowns_text us fs' <-> fs' = fs) /\
    forall ind, map (fmt_unknown o n ind) us = map Ok (map (lay_field p ind) fs).
  Proof.
    induction 1 as [|u us (f & H1 & H2) F (fs & I1 & I2)].
    - exists []. split; [|reflexivity]. intros fs'. split; [inversion 1; reflexivity|intros ->; constructor].
    - exists (f :: fs). split.
      + intros fs'. split; [inversion 1; subst; f_equal; [now apply H1|now apply I1]|intros ->; constructor; [now apply H1|now apply I1]].
      + intros ind. cbn [map]. now rewrite H2, I2.
  Qed.
  Definition fmt_set (n ind : nat) (us : list ufield) : res bytes :=
    match us with [] => Ok [123; 125] | _ => braces o ind (fun i => rjoin (separator o i) (map (fmt_unknown o n i) us)) end.
  Lemma set_shown n us : Forall (unk_shown n) us -> exists fs, (forall fs', unknowns_text us fs' <-> fs' = fs) /\ forall ind, fmt_set n ind us = Ok (lay p ind (TBody fs)).
  Proof.
    intros H. destruct (unks_shown n us H) as (fs & H1 & H2). exists fs. split; [exact H1|]. intros ind. destruct us as [|u us].
    - assert (fs = []) by (symmetry; apply H1; constructor). subst fs. reflexivity.
    - cbn [fmt_set]. rewrite <- braces_lay.
      + unfold braces. rewrite !H2, !rjoin_ok, !sep_same. reflexivity.
      + intros ->. specialize (H2 O). discriminate H2.
  Qed.
  Lemma fmt_unknown_eq n ind u : fmt_unknown o (S n) ind u =
    let! r := match u with
              | UVarint _ v => Ok (58 :: padding o ++ show_N v)
              | U32 _ bs => Ok (58 :: padding o ++ 48 :: 120 :: show_hex 8 (TextFormat.le_value bs))
              | U64 _ bs => Ok (58 :: padding o ++ 48 :: 120 :: show_hex 16 (TextFormat.le_value bs))
              | ULen _ bs =>
                  match bs with
                  | [] => Ok (58 :: padding o ++ fmt_string bs)
                  | _ => match ufs_decode bs with
                         | DOk us _ => let! b := fmt_set n ind us in Ok (padding o ++ b)
                         | DErr _ _ => Ok (58 :: padding o ++ fmt_string bs)
                         | DPanic => Panic
                         | DFuel => Fuel
                         end
                  end
              | UGroup _ us => let! b := fmt_set n ind us in Ok (padding o ++ b)
              end in Ok (show_N (uf_number u) ++ r).
  Proof. destruct u as [num v|num bs|num bs|num us|num bs]; reflexivity. Qed.
  Lemma body_field ind fs num : lay_field p ind (show_N num, TBody fs) = show_N num ++ padding o ++ lay p ind (TBody fs).
  Proof. unfold lay_field. cbn [fst snd colon app]. rewrite pad_same. reflexivity. Qed.

  Lemma unknown_shown n : forall u, uf_ok u -> (girth u < n)%nat -> unk_shown n u.
  Proof.
    induction n as [|n IH]; intros u Hu Hn; [lia|]. destruct u as [num v|num bs|num bs|num us|num bs].
    - exists (show_N num, TWord (show_N v)). split.
      + intros f'. split; [|intros ->; constructor; apply decimal_iff; reflexivity]. inversion 1; subst. f_equal; [now apply decimal_iff|f_equal; now apply decimal_iff].
      + intros ind. rewrite fmt_unknown_eq. cbn [rbind uf_number]. unfold lay_field. cbn [fst snd colon lay]. rewrite pad_same. reflexivity.
    - destruct Hu as [_ [Hb L]]. exists (show_N num, TWord (s2b "0x" ++ show_hex 16 (TextFormat.le_value bs))). split.
      + intros f'. split.
        * inversion 1; subst. f_equal; [now apply decimal_iff|]. f_equal. f_equal. apply (hex_fixed 8 bs v s Hb L). auto.
        * intros ->. destruct (proj2 (hex_fixed 8 bs _ _ Hb L) (conj eq_refl eq_refl)) as (F1 & F2 & F3). eapply ut_64; eauto. now apply decimal_iff.
      + intros ind. rewrite fmt_unknown_eq. cbn [rbind uf_number]. unfold lay_field. cbn [fst snd colon lay]. rewrite pad_same. reflexivity.
    - destruct Hu as [_ Hb].
      assert (S : (bs = [] \/ forall us, ~ raws 100 us bs) -> (forall ind, fmt_unknown o (S n) ind (ULen num bs) = Ok (show_N num ++ 58 :: padding o ++ fmt_string bs)) -> unk_shown (S n) (ULen num bs)).
      { intros C Hf. exists (show_N num, TWord (fmt_string bs)). split.
        - intros f'. split.
          + inversion 1; subst; [exfalso; destruct C as [C|C]; [contradiction|eapply C; eauto]|]. f_equal; [now apply decimal_iff|]. f_equal. now apply quoted_iff.
          + intros ->. apply ut_string; [now apply decimal_iff|exact C|now apply quoted_iff].
        - intros ind. rewrite Hf. unfold lay_field. cbn [fst snd colon lay]. rewrite pad_same. reflexivity. }
      destruct bs as [|b bs'] eqn:Eb; [apply S; [now left|intros; reflexivity]|]. rewrite <- Eb in *. destruct (ufs_decode_ends bs Hb) as [(us & Ed)|(e & us & Ed)].
      + pose proof (proj2 (ufs_decode_iff bs us Hb) Ed) as R. destruct (proj2 raw_girth _ _ _ R Hb) as [U1 U2]. cbn [girth] in Hn.
        destruct (set_shown n us) as (fs & F1 & F2).
        { apply Forall_forall. intros u Hu. rewrite Forall_forall in U1. apply IH; auto. apply girths_in in Hu. subst bs. cbn in *. lia. }
        exists (show_N num, TBody fs). split.
        * intros f'. split.
          -- inversion 1; subst; [|exfalso; match goal with H : _ \/ _ |- _ => destruct H as [H|H]; [discriminate|eapply H; eauto] end].
             match goal with H : raws 100 ?us' _ |- _ => apply ufs_decode_iff in H; [|exact Hb]; assert (us' = us) by congruence; subst end.
             f_equal; [now apply decimal_iff|]. f_equal. now apply F1.
          -- intros ->. eapply ut_records; eauto; [now apply decimal_iff|subst; discriminate|now apply F1].
        * intros ind. rewrite fmt_unknown_eq, Ed. rewrite Eb, F2. cbn [rbind uf_number]. now rewrite body_field.
      + apply S.
        * right. intros us' R. apply ufs_decode_iff in R; [|exact Hb]. congruence.
        * intros ind. rewrite fmt_unknown_eq, Ed. rewrite Eb. reflexivity.
    - apply uf_ok_group in Hu. destruct Hu as [_ Hu]. cbn [girth] in Hn. fold (girths us) in Hn. destruct (set_shown n us) as (fs & F1 & F2).
      { apply Forall_forall. intros u Hin. rewrite Forall_forall in Hu. apply IH; auto. apply girths_in in Hin. lia. }
      exists (show_N num, TBody fs). split.
      + intros f'. split; [inversion 1; subst; f_equal; [now apply decimal_iff|f_equal; now apply F1]|]. intros ->. apply ut_group; [now apply decimal_iff|now apply F1].
      + intros ind. rewrite fmt_unknown_eq, F2. cbn [rbind uf_number]. now rewrite body_field.
    - destruct Hu as [_ [Hb L]]. exists (show_N num, TWord (s2b "0x" ++ show_hex 8 (TextFormat.le_value bs))). split.
      + intros f'. split.
        * inversion 1; subst. f_equal; [now apply decimal_iff|]. f_equal. f_equal. apply (hex_fixed 4 bs v s Hb L). auto.
        * intros ->. destruct (proj2 (hex_fixed 4 bs _ _ Hb L) (conj eq_refl eq_refl)) as (F1 & F2 & F3). eapply ut_32; eauto. now apply decimal_iff.
      + intros ind. rewrite fmt_unknown_eq. cbn [rbind uf_number]. unfold lay_field. cbn [fst snd colon lay]. rewrite pad_same. reflexivity.
  Qed.

  (** the unknown fields kept in a message *)
  Lemma stored_unknown us u : Forall uf_ok us -> In u us -> unk_shown (unknown_fuel us) u.
  Proof.
    intros H Hin. rewrite Forall_forall in H. apply unknown_shown; [auto|]. unfold unknown_fuel. pose proof (girths_encode us). apply girths_in in Hin. lia.
  Qed.
End Unknown.
