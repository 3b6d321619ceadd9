(** Proofs for C60: numbers, base64, masks and scalars. *)
From Coq Require Import String.
From Verif Require Import Base BaseProofs Wire Unknown Value Descr Fields Codec DescrOk Float TextFormat TextParse Json JsonSer
  JsonNumbers JsonMask JsonDe JsonSafe Prop_JsonSafe Prop_JsonRules JsonMeaning.
Open Scope list_scope.
Open Scope N_scope.

(** ** Digits *)
Lemma is_digit_iff c : is_digit c = true <-> digit c.
Proof. unfold is_digit, digit. rewrite andb_true_iff, !N.leb_le. reflexivity. Qed.
Lemma forallb_digits s : forallb is_digit s = true <-> Forall digit s.
Proof. rewrite forallb_forall, Forall_forall. split; intros H x Hx; apply is_digit_iff, H, Hx. Qed.
Lemma numeral_iff s n : numeral s n <-> digits_okb s = true /\ n = dec_value s.
Proof.
  unfold numeral, digits_okb, dec_value. destruct s as [|c s]; [split; [intros [H _]; congruence|intros [H _]; discriminate]|].
  rewrite forallb_digits. split; [intros (_ & H & ->); auto|intros (H & ->)]. split; [discriminate|auto].
Qed.
Lemma numeral_head s n : numeral s n -> exists c r, s = c :: r /\ digit c.
Proof. intros (H & F & _). destruct s as [|c r]; [congruence|]. inversion F; subst. eauto. Qed.

Lemma sign_cases s : (exists r, s = 43 :: r) \/ (exists r, s = 45 :: r) \/ ((forall r, s <> 43 :: r) /\ (forall r, s <> 45 :: r)).
Proof.
  destruct s as [|c r]; [right; right; split; discriminate|].
  destruct (N.eq_dec c 43) as [->|A]; [left; eauto|]. destruct (N.eq_dec c 45) as [->|B]; [right; left; eauto|].
  right; right. split; intros r' [= H _]; congruence.
Qed.
Lemma sign_default {A} (p q : str -> A) (d : A) s : (forall r, s <> 43 :: r) -> (forall r, s <> 45 :: r) ->
  (match s with 43 :: r => p r | 45 :: r => q r | _ => d end) = d.
Proof.
  intros H1 H2. destruct s as [|c r]; [reflexivity|]. destruct c as [|x]; [reflexivity|].
  do 6 (destruct x as [x|x|]; try reflexivity); exfalso; solve [apply (H2 r); reflexivity|apply (H1 r); reflexivity].
Qed.

Lemma int_from_str_iff lo hi s z : int_from_str lo hi s = Some z <-> int_text (lo <? 0)%Z s z /\ (lo <= z <= hi)%Z.
Proof.
  assert (C : forall x, (if (lo <=? x)%Z && (x <=? hi)%Z then Some x else None) = Some z <-> x = z /\ (lo <= z <= hi)%Z).
  { intros x. destruct ((lo <=? x)%Z && (x <=? hi)%Z) eqn:Ex.
    - split; [intros [= <-]; split; [reflexivity|lia]|intros [<- _]; reflexivity].
    - split; [discriminate|]. intros [<- H]. lia. }
  unfold int_from_str. destruct (sign_cases s) as [[r ->]|[[r ->]|[H1 H2]]].
  - split.
    + destruct (digits_okb r) eqn:Ed; [|discriminate]. intros H. apply C in H. destruct H as [<- H]. split; [|exact H].
      apply it_plus. apply numeral_iff. auto.
    + intros [H Hr]. inversion H as [s' n Hn E1 E2|s' n Hn E1 E2|s' n Hs Hn E1 E2]; subst.
      * destruct (numeral_head _ _ Hn) as (c & r' & [= <- _] & [A B]). exfalso. revert A. clear. intros A. now apply A.
      * apply numeral_iff in Hn. destruct Hn as [-> ->]. now apply C.
  - split.
    + destruct (lo <? 0)%Z eqn:El; [|discriminate]. destruct (digits_okb r) eqn:Ed; [|discriminate]. cbn [andb].
      intros H. apply C in H. destruct H as [<- H]. split; [|exact H]. apply it_minus; [reflexivity|]. apply numeral_iff. auto.
    + intros [H Hr]. inversion H as [s' n Hn E1 E2|s' n Hn E1 E2|s' n Hs Hn E1 E2]; subst.
      * destruct (numeral_head _ _ Hn) as (c & r' & [= <- _] & [A B]). exfalso. revert A. clear. intros A. now apply A.
      * apply numeral_iff in Hn. destruct Hn as [-> ->]. rewrite Hs. cbn [andb]. now apply C.
  - rewrite sign_default by assumption. split.
    + destruct (digits_okb s) eqn:Ed; [|discriminate]. intros H. apply C in H. destruct H as [<- H]. split; [|exact H].
      apply it_digits. apply numeral_iff. auto.
    + intros [H Hr]. inversion H as [s' n Hn E1 E2|s' n Hn E1 E2|s' n Hs Hn E1 E2]; subst.
      * apply numeral_iff in Hn. destruct Hn as [-> ->]. now apply C.
      * now destruct (H1 s').
      * now destruct (H2 s').
Qed.

(** ** Integers *)
Lemma f64_is_unique b x y : b < 2 ^ 64 -> f64_is b x -> f64_is b y -> x = y.
Proof. intros Hb H1 H2. apply f64_int_spec in H1; [|exact Hb]. apply f64_int_spec in H2; [|exact Hb]. congruence. Qed.
Lemma de_int_iff lo hi fhi wide j z : (lo <= hi)%Z -> fhi = (if wide : bool then hi + 1 else hi)%Z ->
  (forall b, j = JF64 b -> b < 2 ^ 64) ->
  de_int lo hi fhi j = JOk z <-> int_says lo hi wide j z.
Proof.
  intros Hl Hf Hb.
  assert (F : forall b, b < 2 ^ 64 -> (match f64_int b with
    | None => JErr XNotInteger
    | Some z => if (z <? lo)%Z || (fhi <? z)%Z then JErr XRange else JOk (Z.max lo (Z.min hi z))
    end = JOk z <-> int_says lo hi wide (JF64 b) z)).
  { intros b Hbb. destruct (f64_int b) as [x|] eqn:Ei.
    - pose proof (proj1 (f64_int_spec b x Hbb) Ei) as Hx. destruct ((x <? lo)%Z || (fhi <? x)%Z) eqn:Er.
      + split; [discriminate|]. intros H. exfalso. inversion H as [|b' z' I R|b' W I| |]; subst.
        * pose proof (f64_is_unique _ _ _ Hbb Hx I). subst. destruct wide; lia.
        * pose proof (f64_is_unique _ _ _ Hbb Hx I). subst. lia.
      + split.
        * intros [= <-]. destruct (Z.leb_spec x hi) as [L|L].
          -- replace (Z.max lo (Z.min hi x)) with x by lia. apply is_f64; [exact Hx|lia].
          -- destruct wide; [|lia]. replace (Z.max lo (Z.min hi x)) with hi by lia. apply is_limit; [reflexivity|].
             replace (hi + 1)%Z with x by lia. exact Hx.
        * intros H. inversion H as [|b' z' I R|b' W I| |]; subst; pose proof (f64_is_unique _ _ _ Hbb Hx I); subst; f_equal; lia.
    - split; [discriminate|]. intros H. exfalso. inversion H as [|b' z' I R|b' W I| |]; subst; apply (f64_int_spec _ _ Hbb) in I; congruence. }
  destruct j as [|b|x|b|b|s|l|l]; cbn [de_int]; try (split; [discriminate|intros H; inversion H]).
  - destruct ((lo <=? x)%Z && (x <=? hi)%Z) eqn:Ex.
    + split; [intros [= <-]; apply is_int; lia|intros H; inversion H; subst; reflexivity].
    + split; [discriminate|]. intros H. inversion H; subst. lia.
  - rewrite F by (exact (f32_to_f64_bound b)). split; [apply is_f32|intros H; inversion H; subst; assumption].
  - apply F, Hb. reflexivity.
  - destruct (int_from_str lo hi s) as [x|] eqn:Es.
    + apply int_from_str_iff in Es as Es'. split; [intros [= <-]; now apply is_str|].
      intros H. inversion H; subst. assert (int_from_str lo hi s = Some z) by (now apply int_from_str_iff). congruence.
    + split; [discriminate|]. intros H. inversion H; subst. assert (int_from_str lo hi s = Some z) by (now apply int_from_str_iff). congruence.
Qed.

(** ** Floats *)
Definition stops (s : str) : Prop := match s with c :: _ => ~ digit c | [] => True end.
Lemma span_stops a b : Forall digit a -> stops b -> span is_digit (a ++ b) = (a, b).
Proof.
  intros Ha Hb. induction Ha as [|c a Hc Ha IH]; cbn.
  - destruct b as [|c b]; [reflexivity|]. cbn in Hb |- *. destruct (is_digit c) eqn:E; [apply is_digit_iff in E; contradiction|reflexivity].
  - apply is_digit_iff in Hc. rewrite Hc, IH. reflexivity.
Qed.
Lemma span_inv s : forall a b, span is_digit s = (a, b) -> s = a ++ b /\ Forall digit a /\ stops b.
Proof.
  induction s as [|c s IH]; cbn; intros a b H.
  - injection H as <- <-. repeat split. constructor.
  - destruct (is_digit c) eqn:E.
    + destruct (span is_digit s) as [a' b'] eqn:Es. injection H as <- <-. destruct (IH _ _ eq_refl) as (-> & F & S).
      repeat split; [|exact S]. constructor; [now apply is_digit_iff|exact F].
    + injection H as <- <-. repeat split; [constructor|]. cbn. intros D. apply is_digit_iff in D. congruence.
Qed.

Lemma exponent_iff s z : exponent_text s z <->
  match s with [] => z = 0%Z | c :: r => (c = 101 \/ c = 69) /\ exponent_okb r = true /\ z = dec_exponent r end.
Proof.
  split.
  - intros H. destruct H as [|c s z Hc Hs]; [reflexivity|]. split; [exact Hc|].
    destruct (sign_cases s) as [[r ->]|[[r ->]|[H1 H2]]].
    + inversion Hs as [s' n Hn E1 E2|s' n Hn E1 E2|s' n Hss Hn E1 E2]; subst.
      * destruct (numeral_head _ _ Hn) as (c' & r' & [= <- _] & [A B]). exfalso. now apply A.
      * apply numeral_iff in Hn. destruct Hn as [Hn ->]. split; [exact Hn|reflexivity].
    + inversion Hs as [s' n Hn E1 E2|s' n Hn E1 E2|s' n Hss Hn E1 E2]; subst.
      * destruct (numeral_head _ _ Hn) as (c' & r' & [= <- _] & [A B]). exfalso. now apply A.
      * apply numeral_iff in Hn. destruct Hn as [Hn ->]. split; [exact Hn|reflexivity].
    + inversion Hs as [s' n Hn E1 E2|s' n Hn E1 E2|s' n Hss Hn E1 E2]; subst; [|now destruct (H1 s')|now destruct (H2 s')].
      apply numeral_iff in Hn. destruct Hn as [Hn ->]. unfold exponent_okb, dec_exponent. rewrite !sign_default by assumption. auto.
  - destruct s as [|c s]; [intros ->; constructor|]. intros (Hc & Ho & ->). constructor; [exact Hc|].
    unfold exponent_okb, dec_exponent in *. destruct (sign_cases s) as [[r ->]|[[r ->]|[H1 H2]]].
    + apply it_plus, numeral_iff. auto.
    + apply it_minus; [reflexivity|]. apply numeral_iff. auto.
    + rewrite sign_default in Ho by assumption. rewrite sign_default by assumption. apply it_digits, numeral_iff. auto.
Qed.
Lemma exponent_stops s z : exponent_text s z -> stops s /\ forall r, s <> 46 :: r.
Proof.
  intros H. destruct H as [|c s z Hc _]; [split; [exact I|discriminate]|]. split.
  - cbn. unfold digit. destruct Hc; subst; lia.
  - intros r [= E _]. destruct Hc; subst; discriminate.
Qed.
Lemma point_default {A} (p : str -> A) (d : A) s : (forall r, s <> 46 :: r) -> (match s with 46 :: r => p r | _ => d end) = d.
Proof.
  intros H1. destruct s as [|c r]; [reflexivity|]. destruct c as [|x]; [reflexivity|].
  do 6 (destruct x as [x|x|]; try reflexivity); exfalso; apply (H1 r); reflexivity.
Qed.
Lemma exponent_match {A} (p : str -> A) (d : A) (n : A) c r : c = 101 \/ c = 69 ->
  (match c :: r with [] => n | 101 :: r | 69 :: r => p r | _ => d end) = p r.
Proof. intros [->| ->]; reflexivity. Qed.
Lemma exponent_other {A} (p : str -> A) (d : A) (n : A) c r : c <> 101 -> c <> 69 ->
  (match c :: r with [] => n | 101 :: r | 69 :: r => p r | _ => d end) = d.
Proof.
  intros H1 H2. destruct c as [|x]; [reflexivity|].
  do 7 (destruct x as [x|x|]; try reflexivity); congruence.
Qed.

Lemma decimal_iff round s b : decimal_says round s b <-> decimal_okb s = true /\ b = dec_parse round s.
Proof.
  split.
  - intros [i point f x z n Hi Hf Hp Hn Hx].
    pose proof (exponent_stops _ _ Hx) as [Sx Px].
    assert (Sp : exists r1, span is_digit (i ++ point ++ f ++ x) = (i, r1) /\ (match r1 with 46 :: r => span is_digit r | _ => ([], r1) end) = (f, x)).
    { destruct Hp as [[-> ->]| ->].
      - exists x. cbn [app]. split; [now apply span_stops|]. now rewrite point_default.
      - exists (46 :: f ++ x). split; [apply span_stops; [exact Hi|]; cbn; unfold digit; lia|]. now apply span_stops. }
    destruct Sp as (r1 & S1 & S2). unfold decimal_okb, dec_parse. rewrite S1, S2.
    pose proof Hn as Hn'. apply numeral_iff in Hn'. destruct Hn' as [Hd ->]. destruct Hn as (Hne & _ & _).
    apply exponent_iff in Hx. destruct x as [|c x].
    + subst z. split; [|reflexivity]. destruct (i ++ f); [congruence|reflexivity].
    + destruct Hx as (Hc & Ho & ->). split; [|reflexivity]. destruct (i ++ f); [congruence|]. cbn [andb]. destruct Hc; subst c; exact Ho.
  - intros [Ho ->]. unfold decimal_okb, dec_parse in *. destruct (span is_digit s) as [i r1] eqn:S1.
    destruct (span_inv _ _ _ S1) as (-> & Hi & St).
    destruct (match r1 with 46 :: r => span is_digit r | _ => ([], r1) end) as [f x] eqn:S2.
    assert (P : exists point, r1 = point ++ f ++ x /\ Forall digit f /\ (point = [] /\ f = [] \/ point = [46])).
    { destruct r1 as [|c r1]; [injection S2 as <- <-; exists []; auto|].
      destruct (N.eq_dec c 46) as [->|Nc].
      - destruct (span_inv _ _ _ S2) as (-> & Hf & _). exists [46]. auto.
      - pose proof (point_default (span is_digit) ([], c :: r1) (c :: r1) ltac:(intros r [= E _]; congruence)) as Q.
        assert ((f, x) = ([], c :: r1)) as Q' by (rewrite <- S2; exact Q). clear S2. injection Q' as -> ->. exists []. auto. }
    destruct P as (point & -> & Hf & Hp). apply andb_true_iff in Ho. destruct Ho as [O1 O2].
    assert (Hn : numeral (i ++ f) (dec_value (i ++ f))).
    { apply numeral_iff. split; [|reflexivity]. unfold digits_okb. assert (Forall digit (i ++ f)) as F by (apply Forall_app; auto).
      destruct (i ++ f); [discriminate O1|]. apply forallb_digits, F. }
    assert (Hx : exponent_text x (match x with _ :: r => dec_exponent r | [] => 0%Z end)).
    { apply exponent_iff. destruct x as [|c x]; [reflexivity|]. destruct (N.eq_dec c 101) as [->|N1]; [auto|].
      destruct (N.eq_dec c 69) as [->|N2]; [auto|]. pose proof (exponent_other exponent_okb false true c x N1 N2) as Q. change (match c :: x with [] => true | 101 :: r | 69 :: r => exponent_okb r | _ => false end = true) in O2. congruence. }
    exact (ds_decimal round i point f x _ _ Hi Hf Hp Hn Hx).
Qed.
Definition magnitude (round : N -> N -> N) (inf nan : N) (r : str) : option N :=
  let l := map ascii_lower r in
  if bytes_eqb l (s2b "inf") || bytes_eqb l (s2b "infinity") then Some inf
  else if bytes_eqb l (s2b "nan") then Some nan
  else if decimal_okb r then Some (dec_parse round r) else None.
Lemma letter_not_decimal s c r : map ascii_lower s = c :: r -> 97 <= c -> c <> 101 -> decimal_okb s = false.
Proof.
  destruct s as [|x s]; [discriminate|]. cbn [map]. intros [= Hx _] Hc He.
  assert (Hd : is_digit x = false). { destruct (is_digit x) eqn:D; [|reflexivity]. unfold is_digit in D. unfold ascii_lower in Hx. exfalso.
    destruct ((65 <=? x) && (x <=? 90)) eqn:U; lia. }
  assert (Hp : x <> 46). { intros ->. change (46 = c) in Hx. lia. }
  unfold decimal_okb. cbn [span]. rewrite Hd. clear - Hp.
  destruct x as [|p]; [reflexivity|]. do 6 (destruct p as [p|p|]; try reflexivity). congruence.
Qed.
Lemma magnitude_iff round inf nan s b : float_magnitude round inf nan s b <-> magnitude round inf nan s = Some b.
Proof.
  unfold magnitude. cbv zeta. split.
  - intros [s' b' H|s' H|s' H].
    + apply decimal_iff in H. destruct H as [Ho ->].
      destruct (bytes_eqb (map ascii_lower s') (s2b "inf") || bytes_eqb (map ascii_lower s') (s2b "infinity")) eqn:E1.
      { exfalso. apply orb_true_iff in E1. rewrite !bytes_eqb_eq in E1. destruct E1 as [E1|E1]; apply letter_not_decimal in E1; first [congruence | vm_compute; discriminate]. }
      destruct (bytes_eqb (map ascii_lower s') (s2b "nan")) eqn:E2.
      { exfalso. apply bytes_eqb_eq in E2. apply letter_not_decimal in E2; first [congruence | vm_compute; discriminate]. }
      now rewrite Ho.
    + destruct H as [-> | ->]; reflexivity.
    + rewrite H. reflexivity.
  - destruct (bytes_eqb (map ascii_lower s) (s2b "inf") || bytes_eqb (map ascii_lower s) (s2b "infinity")) eqn:E1.
    { intros [= <-]. apply fm_inf. apply orb_true_iff in E1. rewrite !bytes_eqb_eq in E1. exact E1. }
    destruct (bytes_eqb (map ascii_lower s) (s2b "nan")) eqn:E2.
    { intros [= <-]. apply fm_nan. now apply bytes_eqb_eq. }
    destruct (decimal_okb s) eqn:Ho; [|discriminate]. intros H. apply fm_decimal. apply decimal_iff. split; [exact Ho|]. congruence.
Qed.
Lemma magnitude_signed round inf nan c r : c = 43 \/ c = 45 -> magnitude round inf nan (c :: r) = None.
Proof. intros [->| ->]; reflexivity. Qed.
Lemma float_text_iff round inf nan sign s b : float_text round inf nan sign s b <-> float_from_str round inf nan sign s = Some b.
Proof.
  change (float_from_str round inf nan sign s) with
    (match s with 43 :: r => magnitude round inf nan r | 45 :: r => option_map (fun b => sign + b) (magnitude round inf nan r) | _ => magnitude round inf nan s end).
  destruct (sign_cases s) as [[r ->]|[[r ->]|[H1 H2]]].
  - split.
    + intros H. inversion H as [s' b' M|s' b' M|s' b' M]; subst; apply magnitude_iff in M; [|exact M]. rewrite magnitude_signed in M by auto. discriminate M.
    + intros M. apply ft_plus, magnitude_iff, M.
  - split.
    + intros H. inversion H as [s' b' M|s' b' M|s' b' M]; subst; apply magnitude_iff in M; [|rewrite M; reflexivity]. rewrite magnitude_signed in M by auto. discriminate M.
    + intros M. destruct (magnitude round inf nan r) as [x|] eqn:Em; [|discriminate M]. cbn in M. injection M as <-. apply ft_minus, magnitude_iff, Em.
  - rewrite sign_default by assumption. split.
    + intros H. inversion H as [s' b' M|s' b' M|s' b' M]; subst; [now apply magnitude_iff|now destruct (H1 s')|now destruct (H2 s')].
    + intros M. apply ft_plain, magnitude_iff, M.
Qed.
Lemma float_str_iff round inf nan sign s b :
  (match float_from_str round inf nan sign s with Some b => JOk b | None => special_float inf nan sign s end) = JOk b <->
  float_text round inf nan sign s b.
Proof.
  rewrite float_text_iff. destruct (float_from_str round inf nan sign s) as [x|] eqn:Ef.
  - split; [intros [= <-]; reflexivity|intros [= <-]; reflexivity].
  - split; [|discriminate]. intros H. exfalso. unfold special_float in H.
    destruct (bytes_eqb s (s2b "Infinity")) eqn:X1; [apply bytes_eqb_eq in X1; subst s; discriminate Ef|].
    destruct (bytes_eqb s (s2b "-Infinity")) eqn:X2; [apply bytes_eqb_eq in X2; subst s; discriminate Ef|].
    destruct (bytes_eqb s (s2b "NaN")) eqn:X3; [apply bytes_eqb_eq in X3; subst s; discriminate Ef|].
    discriminate H.
Qed.
Lemma de_f64_iff j b : de_f64 j = JOk b <-> f64_says j b.
Proof.
  destruct j; cbn [de_f64]; try (split; [discriminate|intros H; inversion H]).
  - split; [intros [= <-]; constructor|intros H; inversion H; reflexivity].
  - split; [intros [= <-]; constructor|intros H; inversion H; reflexivity].
  - split; [intros [= <-]; constructor|intros H; inversion H; reflexivity].
  - rewrite float_str_iff. split; [apply d_str|intros H; inversion H; assumption].
Qed.
Lemma de_f32_iff j b : de_f32 j = JOk b <-> f32_says j b.
Proof.
  destruct j as [| |z|x|x|s| |]; cbn [de_f32]; try (split; [discriminate|intros H; inversion H]).
  - split; [intros [= <-]; constructor|intros H; inversion H; reflexivity].
  - split; [intros [= <-]; constructor|intros H; inversion H; reflexivity].
  - destruct ((f32_max_bits <? f64_mag x) && negb (f64_nan x)) eqn:Ex.
    + split; [discriminate|]. intros H. inversion H as [y Hy| | |]; subst. exfalso. apply andb_true_iff in Ex.
      rewrite N.ltb_lt, negb_true_iff in Ex. destruct Ex as [E1 E2]. destruct Hy as [Hy|Hy]; [congruence|lia].
    + split; [intros [= <-]|intros H; inversion H; reflexivity]. constructor.
      destruct (f64_nan x); [now left|right]. apply N.ltb_ge. now rewrite andb_true_r in Ex.
  - rewrite float_str_iff. split; [apply s_str|intros H; inversion H; assumption].
Qed.
