(** The scalars and field masks of C61. *)
From Coq Require Import String.
From Verif Require Import Base BaseProofs Wire Unknown Value Descr Fields Codec DescrOk Float TextFormat TextLexProofs Json JsonSer
  JsonNumbers JsonScalarBack JsonMask JsonMeaning JsonMeaningScalars JsonMeaningB64 JsonWritten.
Open Scope list_scope.
Open Scope N_scope.

(** ** Integers *)
Definition val10 (s : str) : N := fold_left (fun a c => a * 10 + (c - 48)) s 0.
Lemma val10_snoc s c : val10 (s ++ [c]) = val10 s * 10 + (c - 48).
Proof. unfold val10. rewrite fold_left_app. reflexivity. Qed.
Lemma val10_mono s : forall a, a <= fold_left (fun a c => a * 10 + (c - 48)) s a.
Proof. induction s as [|c s IH]; intros a; cbn [fold_left]; [lia|]. specialize (IH (a * 10 + (c - 48))). lia. Qed.
Lemma val10_pos c s : digit c -> c <> 48 -> 0 < val10 (c :: s).
Proof. intros H Hc. unfold val10. cbn [fold_left]. pose proof (val10_mono s (0 * 10 + (c - 48))). unfold digit in H. lia. Qed.
Definition no_zero (s : str) : Prop := forall r, s = 48 :: r -> r = [].
Lemma val10_inj s : forall s', Forall digit s -> Forall digit s' -> s <> [] -> s' <> [] -> no_zero s -> no_zero s' ->
  val10 s = val10 s' -> s = s'.
Proof.
  induction s as [|c p IH] using rev_ind; intros s' D D' N N' Z Z' V; [contradiction|]. clear N.
  destruct s' as [|c' p' _] using rev_ind; [contradiction|]. clear N'.
  rewrite !val10_snoc in V. rewrite Forall_app in D, D'. destruct D as [D Dc], D' as [D' Dc'].
  inversion_clear Dc as [|? ? Hc _]. inversion_clear Dc' as [|? ? Hc' _]. unfold digit in Hc, Hc'.
  assert (V1 : val10 p = val10 p') by lia. assert (V2 : c = c') by lia. subst c'. f_equal.
  assert (P : forall p, p <> [] -> Forall digit p -> no_zero (p ++ [c]) -> 0 < val10 p).
  { intros [|x q] Hn Hd Hz; [contradiction|]. inversion_clear Hd. apply val10_pos; [assumption|]. intros ->. specialize (Hz (q ++ [c]) eq_refl). destruct q; discriminate Hz. }
  assert (Q : forall p, no_zero (p ++ [c]) -> no_zero p).
  { intros q Hz r ->. specialize (Hz (r ++ [c]) eq_refl). destruct r; discriminate Hz. }
  destruct p as [|x q]; destruct p' as [|x' q'].
  - reflexivity.
  - assert (0 < val10 (x' :: q')) by (apply P; [discriminate|assumption|assumption]). change (val10 []) with 0 in V1. lia.
  - assert (0 < val10 (x :: q)) by (apply P; [discriminate|assumption|assumption]). change (val10 []) with 0 in V1. lia.
  - apply IH; auto; discriminate.
Qed.
Lemma decimal_show n : decimal n (show_N n).
Proof.
  split.
  - apply numeral_iff. split; [apply show_okb|]. symmetry. apply dec_show.
  - intros r Hr. destruct (N.eq_0_gt_0_cases n) as [->|Hn]; [change (show_N 0) with [48] in Hr; congruence|].
    destruct (show_N_first n Hn) as (c & q & E & Hc). rewrite E in Hr. injection Hr as -> _. lia.
Qed.
Lemma decimal_iff n s : decimal n s <-> s = show_N n.
Proof.
  split; [|intros ->; apply decimal_show]. intros [(H1 & H2 & H3) H4]. destruct (decimal_show n) as [(K1 & K2 & K3) K4].
  apply val10_inj; auto. unfold val10. congruence.
Qed.
Lemma int_shown_iff z s : int_shown z s <-> s = show_Z z.
Proof.
  unfold show_Z. split.
  - intros [n s' H|n s' Hn H]; apply decimal_iff in H; subst s'.
    + replace (Z.of_N n <? 0)%Z with false by lia. now rewrite N2Z.id.
    + replace (- Z.of_N n <? 0)%Z with true by lia. now rewrite Z.opp_involutive, N2Z.id.
  - intros ->. destruct (z <? 0)%Z eqn:Ez.
    + replace z with (- Z.of_N (Z.to_N (- z)))%Z at 1 by lia. apply sh_neg; [lia|apply decimal_show].
    + replace z with (Z.of_N (Z.to_N z)) at 1 by lia. apply sh_nat, decimal_show.
Qed.

(** ** Floats *)
Lemma f32_iff b j : b < 2 ^ 32 -> ser_f32 b = j <-> f32_shown b j.
Proof.
  intros Hb. unfold ser_f32, f32_finite, float_name. change sign32 with (2 ^ 31). change inf32 with (255 * 2 ^ 23).
  pose proof (N.div_mod b (2 ^ 31) ltac:(discriminate)) as D. pose proof (N.mod_lt b (2 ^ 31) ltac:(discriminate)) as L.
  assert (Q : b / 2 ^ 31 <= 1) by (apply N.lt_succ_r, N.div_lt_upper_bound; [discriminate|exact Hb]).
  remember (b mod 2 ^ 31) as r eqn:Er. remember (b / 2 ^ 31) as q eqn:Eq. change (2 ^ 31) with 2147483648 in *. change (255 * 2 ^ 23) with 2139095040 in *.
  change (2 ^ 32) with 4294967296 in Hb.
  split.
  - intros <-. destruct (N.ltb_spec r 2139095040); [apply f32_number; subst r; assumption|].
    destruct (N.ltb_spec 2139095040 r); [apply f32_not_a_number; subst r; assumption|]. assert (r = 2139095040) by lia.
    destruct (N.ltb_spec b 2147483648); [apply f32_inf; change (255 * 2 ^ 23) with 2139095040; lia|apply f32_minus_inf; change (2 ^ 31 + 255 * 2 ^ 23) with 4286578688; lia].
  - intros [H|H|H|H].
    + change (2 ^ 31) with 2147483648 in H. change (255 * 2 ^ 23) with 2139095040 in H. rewrite <- Er in H. destruct (N.ltb_spec r 2139095040); [reflexivity|lia].
    + change (2 ^ 31) with 2147483648 in H. change (255 * 2 ^ 23) with 2139095040 in H. rewrite <- Er in H. destruct (N.ltb_spec r 2139095040); [lia|]. destruct (N.ltb_spec 2139095040 r); [reflexivity|lia].
    + change (255 * 2 ^ 23) with 2139095040 in H. destruct (N.ltb_spec r 2139095040); [lia|]. destruct (N.ltb_spec 2139095040 r); [lia|]. destruct (N.ltb_spec b 2147483648); [reflexivity|lia].
    + change (2 ^ 31 + 255 * 2 ^ 23) with 4286578688 in H. destruct (N.ltb_spec r 2139095040); [lia|]. destruct (N.ltb_spec 2139095040 r); [lia|]. destruct (N.ltb_spec b 2147483648); [lia|reflexivity].
Qed.
Lemma f64_iff b j : b < 2 ^ 64 -> ser_f64 b = j <-> f64_shown b j.
Proof.
  intros Hb. unfold ser_f64, f64_finite, f64_nan, f64_mag, float_name. change sign64 with (2 ^ 63). change inf64 with (2047 * 2 ^ 52).
  pose proof (N.div_mod b (2 ^ 63) ltac:(discriminate)) as D. pose proof (N.mod_lt b (2 ^ 63) ltac:(discriminate)) as L.
  assert (Q : b / 2 ^ 63 <= 1) by (apply N.lt_succ_r, N.div_lt_upper_bound; [discriminate|exact Hb]).
  remember (b mod 2 ^ 63) as r eqn:Er. remember (b / 2 ^ 63) as q eqn:Eq. change (2 ^ 63) with 9223372036854775808 in *. change (2047 * 2 ^ 52) with 9218868437227405312 in *.
  change (2 ^ 64) with 18446744073709551616 in Hb.
  split.
  - intros <-. destruct (N.ltb_spec r 9218868437227405312); [apply f64_number; subst r; assumption|].
    destruct (N.ltb_spec 9218868437227405312 r); [apply f64_not_a_number; subst r; assumption|]. assert (r = 9218868437227405312) by lia.
    destruct (N.ltb_spec b 9223372036854775808); [apply f64_inf; change (2047 * 2 ^ 52) with 9218868437227405312; lia|apply f64_minus_inf; change (2 ^ 63 + 2047 * 2 ^ 52) with 18442240474082181120; lia].
  - intros [H|H|H|H].
    + change (2 ^ 63) with 9223372036854775808 in H. change (2047 * 2 ^ 52) with 9218868437227405312 in H. rewrite <- Er in H. destruct (N.ltb_spec r 9218868437227405312); [reflexivity|lia].
    + change (2 ^ 63) with 9223372036854775808 in H. change (2047 * 2 ^ 52) with 9218868437227405312 in H. rewrite <- Er in H. destruct (N.ltb_spec r 9218868437227405312); [lia|]. destruct (N.ltb_spec 9218868437227405312 r); [reflexivity|lia].
    + change (2047 * 2 ^ 52) with 9218868437227405312 in H. destruct (N.ltb_spec r 9218868437227405312); [lia|]. destruct (N.ltb_spec 9218868437227405312 r); [lia|]. destruct (N.ltb_spec b 9223372036854775808); [reflexivity|lia].
    + change (2 ^ 63 + 2047 * 2 ^ 52) with 18442240474082181120 in H. destruct (N.ltb_spec r 9218868437227405312); [lia|]. destruct (N.ltb_spec 9218868437227405312 r); [lia|]. destruct (N.ltb_spec b 9223372036854775808); [lia|reflexivity].
Qed.

(** ** Scalars and keys *)
Section Scalars.
  Variables (E : json_externs) (t : tables) (o : jopt).

  Definition bits_fit (v : value) : Prop :=
    match v with VF32 b => b < 2 ^ 32 | VF64 b => b < 2 ^ 64 | VBytes s => bytes_ok s | _ => True end.
  Lemma sc_bits k v : sc_okb k v = true -> bits_fit v.
  Proof.
    destruct v; cbn [bits_fit]; auto; destruct k; try discriminate; cbn [sc_okb]; intros H.
    - unfold u32_ok in H. apply N.ltb_lt in H. exact H.
    - unfold u64_ok in H. apply N.ltb_lt in H. exact H.
    - now apply bytes_okb_ok.
  Qed.
  Lemma bytes_shown_iff bs s : bytes_ok bs -> b64_text false true bs s <-> s = b64_encode false true bs.
  Proof. intros H. split; [now apply spec_encode|]. intros ->. now apply encode_spec. Qed.
  Lemma scalar_iff v k j : bits_fit v -> ser_scalar E t o v k = Some (JOk j) <-> scalar_shown E t o k v j.
  Proof.
    intros Hb. destruct v; cbn [ser_scalar bits_fit] in *.
    - split; [intros [= <-]; constructor|inversion_clear 1; reflexivity].
    - split; [intros [= <-]; constructor|inversion_clear 1; reflexivity].
    - unfold ser_i64. destruct (j_stringify o) eqn:Es.
      + split; [intros [= <-]; apply sw_i64_text; [exact Es|now apply int_shown_iff]|].
        intros H. inversion H; subst; [congruence|]. match goal with H : int_shown _ _ |- _ => apply int_shown_iff in H; subst end. reflexivity.
      + split; [intros [= <-]; apply sw_i64; exact Es|]. intros H. inversion H; subst; [reflexivity|congruence].
    - split; [intros [= <-]; constructor|inversion_clear 1; reflexivity].
    - unfold ser_u64. destruct (j_stringify o) eqn:Es.
      + split; [intros [= <-]; apply sw_u64_text; [exact Es|now apply decimal_iff]|].
        intros H. inversion H; subst; [congruence|]. match goal with H : decimal _ _ |- _ => apply decimal_iff in H; subst end. reflexivity.
      + split; [intros [= <-]; apply sw_u64; exact Es|]. intros H. inversion H; subst; [reflexivity|congruence].
    - split; [intros H; injection H as H; apply sw_f32; now apply f32_iff|]. intros H. inversion H; subst. f_equal. f_equal. now apply f32_iff.
    - split; [intros H; injection H as H; apply sw_f64; now apply f64_iff|]. intros H. inversion H; subst. f_equal. f_equal. now apply f64_iff.
    - split; [intros [= <-]; constructor|inversion_clear 1; reflexivity].
    - split; [intros H; injection H as <-; apply sw_bytes; now apply bytes_shown_iff|]. intros H. inversion H; subst.
      match goal with H : b64_text _ _ _ _ |- _ => apply bytes_shown_iff in H; [subst; reflexivity|exact Hb] end.
    - split.
      + destruct k as [| | | | | | | | | | | | | | | |e|]; try discriminate. intros H. injection H as <-. destruct (is_null_enum t e) eqn:En; [now apply sw_null|].
        destruct (j_enum_numbers o) eqn:Eo; [now apply sw_enum_number|]. destruct (json_enum_name E t e z) eqn:Ez; [now apply sw_enum_name|now apply sw_enum_unknown].
      + intros H. inversion H; subst; repeat match goal with H : is_null_enum t _ = _ |- _ => rewrite H | H : j_enum_numbers o = _ |- _ => rewrite H | H : json_enum_name E t _ _ = _ |- _ => rewrite H end; reflexivity.
    - split; [discriminate|inversion 1].
    - split; [discriminate|inversion 1].
    - split; [discriminate|inversion 1].
  Qed.
  Lemma wrapped_iff v j : bits_fit v -> ser_wrapped E t o v = JOk j <-> wrapped_shown E t o v j.
  Proof.
    intros Hb. unfold ser_wrapped.
    assert (G : (forall b, v <> VF32 b) -> (forall b, v <> VF64 b) ->
      (match ser_scalar E t o v KBool with Some r => r | None => JPanic end = JOk j <-> wrapped_shown E t o v j)).
    { intros H1 H2. pose proof (scalar_iff v KBool j Hb) as I. split.
      - intros H. apply wr_other; auto. apply I. destruct (ser_scalar E t o v KBool); [now subst|discriminate].
      - intros H. inversion H; subst; [exfalso; now apply (H1 b)|exfalso; now apply (H2 b)|]. now rewrite (proj2 I). }
    destruct v; try (apply G; intros; discriminate).
    - split; [intros [= <-]; constructor|]. intros H. inversion H; subst; [reflexivity|]. exfalso. eapply H0. reflexivity.
    - split; [intros [= <-]; constructor|]. intros H. inversion H; subst; [reflexivity|]. exfalso. eapply H1. reflexivity.
  Qed.
  Lemma key_shown_iff k s : key_shown k s <-> s = ser_key k.
  Proof.
    destruct k; cbn [ser_key].
    - destruct b; (split; [inversion 1; reflexivity|intros ->; constructor]).
    - rewrite <- int_shown_iff. split; [inversion 1; assumption|constructor; assumption].
    - rewrite <- int_shown_iff. split; [inversion 1; assumption|constructor; assumption].
    - rewrite <- decimal_iff. split; [inversion 1; assumption|constructor; assumption].
    - rewrite <- decimal_iff. split; [inversion 1; assumption|constructor; assumption].
    - split; [inversion 1; reflexivity|intros ->; constructor].
  Qed.
End Scalars.

(** ** Field masks *)
Lemma snake_iff n : forall s x, (length s <= n)%nat -> snake_to_camel false s = Some x <-> snake s x.
Proof.
  induction n as [|n IH]; intros s x L.
  - destruct s; [|cbn in L; lia]. cbn. split; [intros [= <-]; constructor|inversion 1; reflexivity].
  - destruct s as [|c s]; [cbn; split; [intros [= <-]; constructor|inversion 1; reflexivity]|]. cbn [length] in L.
    cbn [snake_to_camel]. unfold is_upper. destruct ((65 <=? c) && (c <=? 90)) eqn:Eu.
    { split; [discriminate|]. intros H. inversion H; subst; lia. }
    destruct (c =? 95) eqn:Ec.
    + apply N.eqb_eq in Ec. subst c. destruct s as [|c s].
      * cbn. split; [intros [= <-]; constructor|]. intros H. inversion H; subst; [reflexivity|lia].
      * cbn [snake_to_camel length] in *. unfold is_upper. destruct ((65 <=? c) && (c <=? 90)) eqn:Eu2.
        { split; [discriminate|]. intros H. inversion H; subst; lia. }
        unfold ascii_upper. destruct ((97 <=? c) && (c <=? 122)) eqn:El.
        -- replace (c - 32 =? c) with false by lia. split.
           ++ intros H. destruct (snake_to_camel false s) as [y|] eqn:Es; [|discriminate]. injection H as <-. apply sn_under; [lia|]. apply IH; [lia|exact Es].
           ++ intros H. inversion H; subst; [|lia]. match goal with H : snake s _ |- _ => apply IH in H; [rewrite H; reflexivity|lia] end.
        -- rewrite N.eqb_refl. split; [discriminate|]. intros H. inversion H; subst; lia.
    + split.
      * intros H. destruct (snake_to_camel false s) as [y|] eqn:Es; [|discriminate]. injection H as <-. apply sn_other; [lia|lia|]. apply IH; [lia|exact Es].
      * intros H. inversion H; subst; try discriminate Ec. match goal with H : snake s _ |- _ => apply IH in H; [rewrite H; reflexivity|lia] end.
Qed.
Lemma opt_list_iff {A B} (g : A -> option B) l : forall r, opt_list (map g l) = Some r <-> Forall2 (fun a b => g a = Some b) l r.
Proof.
  induction l as [|a l IH]; intros r; cbn [map opt_list].
  - split; [intros [= <-]; constructor|inversion 1; reflexivity].
  - split.
    + destruct (g a) eqn:Eg; [|discriminate]. destruct (opt_list (map g l)) eqn:El; [|discriminate]. intros [= <-]. constructor; [exact Eg|now apply IH].
    + intros H. inversion H; subst. match goal with H : g a = _ |- _ => rewrite H end. match goal with H : Forall2 _ l _ |- _ => apply IH in H; rewrite H end. reflexivity.
Qed.
Lemma path_shown_iff p s : mask_path_out p = Some s <-> path_shown p s.
Proof.
  unfold mask_path_out, path_shown. split.
  - destruct (opt_list (map (snake_to_camel false) (split_on 46 p))) as [l'|] eqn:El; [|discriminate]. intros [= <-].
    exists (split_on 46 p), l'. split; [now apply pieces_iff|]. split; [|reflexivity]. apply opt_list_iff in El.
    eapply Forall2_iff; [|exact El]. intros a b. symmetry. now apply (snake_iff (length a)).
  - intros (l & l' & Hp & Hf & ->). apply pieces_iff in Hp. subst l.
    assert (F : Forall2 (fun a b => snake_to_camel false a = Some b) (split_on 46 p) l').
    { eapply Forall2_iff; [|exact Hf]. intros a b. now apply (snake_iff (length a)). }
    apply opt_list_iff in F. rewrite F. reflexivity.
Qed.
Lemma join_cons sep a l : l <> [] -> join_with sep (a :: l) = a ++ sep :: join_with sep l.
Proof. destruct l; [contradiction|reflexivity]. Qed.
Lemma mask_out_from ps : forall acc s, acc <> [] -> mask_out acc ps = Some s <-> exists l, Forall2 path_shown ps l /\ s = join_with 44 (acc :: l).
Proof.
  induction ps as [|p ps IH]; intros acc s Ha; cbn [mask_out].
  - split; [intros [= <-]; exists []; split; [constructor|reflexivity]|]. intros (l & H & ->). inversion H. reflexivity.
  - pose proof (path_shown_iff p) as P. destruct (mask_path_out p) as [x|] eqn:Ep.
    + assert (Hm : match acc with [] => [] | _ => [44] end = [44]) by (destruct acc; [contradiction|reflexivity]). rewrite Hm.
      rewrite IH by (destruct acc; [contradiction|discriminate]). split.
      * intros (l & H & ->). exists (x :: l). split; [constructor; [now apply P|exact H]|]. destruct l; cbn [join_with]; rewrite <- ?app_assoc; reflexivity.
      * intros (l & H & ->). inversion H as [|? y ? l' H1 H2]; subst. apply P in H1. injection H1 as ->. exists l'. split; [exact H2|].
        destruct l'; cbn [join_with]; rewrite <- ?app_assoc; reflexivity.
    + split; [discriminate|]. intros (l & H & _). inversion H as [|? y ? l' H1 H2]; subst. apply P in H1. discriminate.
Qed.
Lemma mask_out_iff ps : forall s, mask_out [] ps = Some s <-> mask_shown ps s.
Proof.
  unfold mask_shown. induction ps as [|p ps IH]; intros s; cbn [mask_out].
  - split; [intros [= <-]; exists []; split; [constructor|reflexivity]|]. intros (l & H & ->). inversion H. reflexivity.
  - pose proof (path_shown_iff p) as P. destruct (mask_path_out p) as [x|] eqn:Ep.
    + cbn [app]. destruct x as [|c x].
      * rewrite IH. split.
        -- intros (l & H & ->). exists ([] :: l). split; [constructor; [now apply P|exact H]|reflexivity].
        -- intros (l & H & ->). inversion H as [|? y ? l' H1 H2]; subst. apply P in H1. injection H1 as <-. exists l'. split; [exact H2|reflexivity].
      * rewrite mask_out_from by discriminate. split.
        -- intros (l & H & ->). exists ((c :: x) :: l). split; [constructor; [now apply P|exact H]|reflexivity].
        -- intros (l & H & ->). inversion H as [|? y ? l' H1 H2]; subst. apply P in H1. injection H1 as <-. exists l'. split; [exact H2|reflexivity].
    + split; [discriminate|]. intros (l & H & _). inversion H as [|? y ? l' H1 H2]; subst. apply P in H1. discriminate.
Qed.
