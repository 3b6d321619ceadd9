(** C66: words, unknown fields and Any. *)
From Coq Require Import String.
From Verif Require Import Base BaseProofs Wire WireProofs LoopProofs Unknown UnknownProofs Value Descr Fields Codec DescrOk DescrProofs FieldsProofs
  MergeProofs ExtendProofs RestrictProofs RecordProofs WireSpec WireSpecScalars WireSpecRead Float TextFormat TextLexProofs JsonNumbers JsonMeaning
  JsonWritten JsonWrittenScalars TextWritten Prop_Decode EncBytes Prop_TextRound.
Open Scope list_scope.
Open Scope N_scope.

(** ** Strings *)
Lemma fmt_char_else c : ~ In c [9; 13; 10; 92; 39; 34] ->
  fmt_char c = if (32 <=? c) && (c <=? 126) then [c] else [92; 48 + c / 64; 48 + (c / 8) mod 8; 48 + c mod 8].
Proof.
  cbn [In]. intros H. destruct c as [|p]; [reflexivity|]. do 7 (try (destruct p as [p|p|]; try reflexivity)); exfalso; apply H; tauto.
Qed.
Lemma byte_text_iff c s : c < 256 -> byte_text c s <-> s = fmt_char c.
Proof.
  intros Hc. split.
  - intros H. destruct H as [| | | | | |c H1 H2|a b d H1 H2 H3 H4 H5]; try reflexivity.
    + cbn [In] in H2. rewrite fmt_char_else by (cbn [In] in *; lia). destruct (N.leb_spec 32 c); [|lia]. destruct (N.leb_spec c 126); [reflexivity|lia].
    + cbn [In] in H5. set (c := 64 * a + 8 * b + d) in *.
      rewrite fmt_char_else by (cbn [In] in *; lia). destruct (N.leb_spec 32 c), (N.leb_spec c 126); cbn [andb]; try (exfalso; apply H4; lia);
        (assert (E1 : c / 64 = a) by (symmetry; apply (N.div_unique c 64 a (8 * b + d)); lia);
         assert (E2 : c / 8 = 8 * a + b) by (symmetry; apply (N.div_unique c 8 (8 * a + b) d); lia);
         assert (E3 : c mod 8 = d) by (symmetry; apply (N.mod_unique c 8 (8 * a + b) d); lia);
         assert (E4 : (8 * a + b) mod 8 = b) by (symmetry; apply (N.mod_unique (8 * a + b) 8 a b); lia);
         rewrite E1, E2, E3, E4; reflexivity).
  - intros ->. destruct (in_dec N.eq_dec c [9; 13; 10; 92; 39; 34]) as [Hin|Hin].
    + cbn [In] in Hin. destruct Hin as [<-|[<-|[<-|[<-|[<-|[<-|[]]]]]]]; constructor.
    + rewrite fmt_char_else by (cbn [In] in *; lia). destruct (N.leb_spec 32 c), (N.leb_spec c 126); cbn [andb]; try (apply by_plain; [lia|cbn [In] in *; lia]);
        (assert (E : c = 64 * (c / 64) + 8 * ((c / 8) mod 8) + c mod 8);
         [pose proof (N.div_mod c 8 ltac:(lia)); pose proof (N.div_mod (c / 8) 8 ltac:(lia)); assert (c / 64 = c / 8 / 8) by (rewrite N.div_div by lia; reflexivity); lia|];
         assert (L1 : c / 64 < 8) by (apply N.div_lt_upper_bound; lia); pose proof (N.mod_lt (c / 8) 8 ltac:(lia)) as L2; pose proof (N.mod_lt c 8 ltac:(lia)) as L3;
         rewrite E at 1; apply by_octal; auto; rewrite <- E; [lia|cbn [In] in *; lia]).
Qed.
Lemma quoted_iff bs s : bytes_ok bs -> quoted bs s <-> s = fmt_string bs.
Proof.
  intros Hb. unfold quoted, fmt_string. rewrite flat_map_concat_map. split.
  - intros (l & F & ->). f_equal. f_equal. f_equal. induction F as [|c x bs l H F IH]; [reflexivity|]. inversion_clear Hb as [|? ? B1 B2]. cbn [map]. f_equal; [now apply byte_text_iff|auto].
  - intros ->. exists (map fmt_char bs). split; [|reflexivity]. induction Hb as [|c bs Hc Hb IH]; constructor; [now apply byte_text_iff|exact IH].
Qed.

(** ** Hexadecimal numbers *)
Lemma hex_char_iff c d : d < 16 -> hex_digit c d <-> c = hex_char d.
Proof. intros H. unfold hex_digit, hex_char. destruct (N.ltb_spec d 10); lia. Qed.
Lemma hex_of_lt s x : hex_of s x -> x < 16 ^ N.of_nat (length s).
Proof.
  induction 1 as [|s x c d H IH Hd]; [cbn; lia|]. rewrite app_length. cbn [length]. rewrite Nat2N.inj_add, N.pow_add_r. change (16 ^ N.of_nat 1) with 16.
  unfold hex_digit in Hd. nia.
Qed.
Lemma hex_iff n : forall s x, x < 16 ^ N.of_nat n -> hex_of s x /\ length s = n <-> s = show_hex n x.
Proof.
  induction n as [|n IH]; intros s x Hx.
  - cbn [show_hex]. cbn in Hx. assert (x = 0) by lia. subst x. split; [intros [_ H]; now destruct s|intros ->; split; [constructor|reflexivity]].
  - cbn [show_hex]. assert (Hd : x / 16 < 16 ^ N.of_nat n). { apply N.div_lt_upper_bound; [lia|]. rewrite Nat2N.inj_succ, N.pow_succ_r' in Hx. exact Hx. }
    pose proof (N.mod_lt x 16 ltac:(lia)) as Hm. pose proof (N.div_mod x 16 ltac:(lia)) as D. split.
    + intros [H L]. inversion H as [|s' y c d H1 H2]; subst; [discriminate|]. rewrite app_length in L. cbn [length] in L.
      assert (E1 : (16 * y + d) / 16 = y). { symmetry. apply (N.div_unique _ 16 y d); [|lia]. unfold hex_digit in H2. lia. }
      assert (E2 : (16 * y + d) mod 16 = d). { symmetry. apply (N.mod_unique _ 16 y d); [|lia]. unfold hex_digit in H2. lia. }
      rewrite E1, E2. rewrite E2 in Hm. f_equal; [|now apply f_equal with (f := fun x => [x]), hex_char_iff]. apply IH; [now rewrite E1 in Hd|]. split; [exact H1|lia].
    + intros ->. destruct (proj2 (IH (show_hex n (x / 16)) (x / 16) Hd) eq_refl) as [H1 H2]. split; [|rewrite app_length; cbn [length]; lia].
      rewrite D at 3. constructor; [exact H1|]. now apply hex_char_iff.
Qed.
Lemma le_value_same bs : TextFormat.le_value bs = Wire.le_value bs.
Proof. induction bs as [|b bs IH]; [reflexivity|]. cbn [TextFormat.le_value fold_right Wire.le_value]. unfold TextFormat.le_value in IH. rewrite IH. reflexivity. Qed.
Lemma le_value_lt bs : bytes_ok bs -> TextFormat.le_value bs < 16 ^ N.of_nat (2 * length bs).
Proof.
  induction 1 as [|b bs Hb H IH]; [cbn; lia|]. cbn [length]. replace (2 * S (length bs))%nat with (2 + 2 * length bs)%nat by lia. rewrite Nat2N.inj_add, N.pow_add_r.
  change (16 ^ N.of_nat 2) with 256. unfold TextFormat.le_value in *. cbn [fold_right]. cbn beta in Hb. nia.
Qed.
Lemma hex_fixed w bs v s : bytes_ok bs -> length bs = w -> fixed w v bs /\ hex_of s v /\ length s = (2 * w)%nat <-> v = Wire.le_value bs /\ s = show_hex (2 * w) (TextFormat.le_value bs).
Proof.
  intros Hb L. pose proof (le_value_lt bs Hb) as Hl. rewrite L in Hl. unfold fixed. rewrite little_value. split.
  - intros (((_ & ->) & _) & H1 & H2). split; [reflexivity|]. apply hex_iff; [exact Hl|]. rewrite le_value_same. auto.
  - intros [-> ->]. split; [auto|]. pose proof (proj2 (hex_iff (2 * w) (show_hex (2 * w) (TextFormat.le_value bs)) _ Hl) eq_refl) as Hq. rewrite le_value_same in Hq at 2. exact Hq.
Qed.

(** ** Records in what is delimited *)
Lemma ufs_decode_iff bs us : bytes_ok bs -> raws 100 us bs <-> ufs_decode bs = DOk us [].
Proof.
  intros Hb. unfold ufs_decode. fold (uf_step ctx0). change ctx0 with 100%nat. split.
  - intros H. destruct (proj2 raw_complete _ _ _ H Hb) as (cs & -> & R & _). specialize (R []). cbn [app] in R.
    apply (runs_stream (uf_step 100) (uf_step_ext 100) (uf_step_rev 100) [] _ us); [exact R|lia].
  - intros H. destruct (stream_runs (uf_step 100) (uf_step_ext 100) (uf_step_rev 100) _ _ _ _ _ H) as (_ & cs & -> & R).
    assert (G : forall acc cs us, runs (uf_step 100) acc cs us -> bytes_ok (concat cs) -> exists vs, us = acc ++ vs /\ raws 100 vs (concat cs)).
    { clear. induction 1 as [acc|acc c n w p acc1 cs us Hk Hs Hr IHr]; intros Hb.
      - exists []. split; [now rewrite app_nil_r|constructor].
      - cbn [concat] in *. apply bytes_ok_app in Hb. destruct Hb as [Hb1 Hb2]. destruct (IHr Hb2) as (vs & -> & Hvs). unfold uf_step in Hs.
        destruct (uf_decode_value 100 n w p) as [[u r]| | |] eqn:Eu; try discriminate. injection Hs as <- ->.
        destruct (chunk_key _ _ _ _ Hb1 Hk) as (kb & -> & K & Hp). destruct (raw_sound _ _ _ _ _ _ (proj1 K) Hp Eu) as (<- & <- & pl & -> & Hpl). rewrite app_nil_r.
        exists (u :: vs). split; [now rewrite <- app_assoc|]. rewrite <- app_assoc. now constructor. }
    destruct (G _ _ _ R Hb) as (vs & -> & Hvs). exact Hvs.
Qed.
Lemma ufs_decode_ends bs : bytes_ok bs -> (exists us, ufs_decode bs = DOk us []) \/ (exists e us, ufs_decode bs = DErr e us).
Proof.
  intros Hb. unfold ufs_decode. fold (uf_step ctx0). change ctx0 with 100%nat.
  assert (G : good (fun _ : list ufield => True) bs (stream_loop (length bs) (uf_step 100) [] bs)).
  { apply stream_loop_good with (L := length bs); auto. intros s n w b _ Hn Hb' _. unfold uf_step. pose proof (uf_decode_value_good 100 n w b Hn Hb') as U.
    destruct (uf_decode_value 100 n w b) as [[u r]| | |]; cbn in *; tauto. }
  destruct (stream_loop (length bs) (uf_step 100) [] bs) as [us r|e us| |] eqn:Es; try destruct G; [left|right; eauto].
  apply stream_loop_rest in Es. subst r. eauto.
Qed.
