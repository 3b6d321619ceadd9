(** Printed scalars are read back. *)
From Coq Require Import String.
From Verif Require Import Base BaseProofs Wire WireProofs Unknown Value Descr Fields Codec DescrOk DescrProofs
  MergeProofs Float TextLex TextFormat TextParse TextLexProofs TextInts TextTokens TextSafe.
Open Scope list_scope.
Open Scope N_scope.

(** ** What Rust's Display promises of floats *)

Definition digits (s : bytes) : Prop := Forall (fun c => is_digit c = true) s.
(** digits, a point, digits *)
Definition decimal_text (s : bytes) : Prop :=
  exists i f, s = i ++ 46 :: f /\ i <> [] /\ digits i /\ digits f.
Definition inf_bits (inf sign b : N) : bool := b mod sign =? inf.
Definition signed_text (neg : bool) (s : bytes) : bytes := if neg then 45 :: s else s.
Definition unsigned_text (s : bytes) : bytes := match s with 45 :: r => r | _ => s end.
Definition decimal_textb (s : bytes) : bool :=
  let (i, r) := span is_digit s in
  match i, r with
  | _ :: _, 46 :: f => forallb is_digit f
  | _, _ => false
  end.

(** The text of a float is read back as the same float.  Finite: a sign and a
    decimal; the reader reads every float as a double and then narrows it to a
    float where asked, which must give the number back.  Infinities are printed
    by name.  NaN comes back as the one NaN the reader makes. *)
Definition reads64 (E : text_externs) (b : N) : bool :=
  let s := tx_show64 E b in
  let u := unsigned_text s in
  if f64_nan b then (b =? nan64) && bytes_eqb s (s2b "NaN")
  else bytes_eqb s (signed_text (sign64 <=? b) u) &&
    if inf_bits inf64 sign64 b then bytes_eqb u (s2b "inf")
    else decimal_textb u && (f64_parse u =? b mod sign64).
Definition reads32 (E : text_externs) (b : N) : bool :=
  let s := tx_show32 E b in
  let u := unsigned_text s in
  if f32_nan b then (b =? nan32) && bytes_eqb s (s2b "NaN")
  else bytes_eqb s (signed_text (sign32 <=? b) u) &&
    if inf_bits inf32 sign32 b then bytes_eqb u (s2b "inf")
    else decimal_textb u && (f64_to_f32 (f64_parse u) =? b mod sign32).

Lemma decimal_textb_ok s : decimal_textb s = true -> decimal_text s.
Proof.
  unfold decimal_textb. destruct (span is_digit s) as [i r] eqn:Es. intros H.
  assert (D : digits i).
  { clear H. revert i r Es. induction s as [|c s IH]; intros i r; cbn [span]; [intros [= <- <-]; constructor|].
    destruct (is_digit c) eqn:Ec; [|intros [= <- <-]; constructor]. destruct (span is_digit s) as [a b] eqn:E'.
    intros [= <- <-]. constructor; [exact Ec|eapply IH; reflexivity]. }
  apply span_length in Es. destruct i as [|x i]; [discriminate|]. destruct r as [|c f]; [discriminate|].
  assert (c = 46 /\ forallb is_digit f = true) as [-> Hf].
  { destruct c as [|c]; [discriminate|]. do 6 (try (destruct c as [c|c|]; try discriminate H)). auto. }
  exists (x :: i), f. split; [exact Es|]. split; [discriminate|]. split; [exact D|].
  unfold digits. rewrite Forall_forall. rewrite forallb_forall in Hf. exact Hf.
Qed.

(** ** Lexing *)

(** a text that is read as the tokens [ts] whatever follows, as long as the
    next character ends a literal *)
Definition lexes (b : bytes) (ts : list tok) : Prop :=
  forall rest ks, stops rest -> lex rest = Ok ks -> lex (b ++ rest) = Ok (ts ++ ks).

Lemma stops_not_ident rest : stops rest -> match rest with c :: _ => ident_char c = false | [] => True end.
Proof. destruct rest as [|c r]; [auto|]. intros [-> | [-> | [-> | ->]]]; reflexivity. Qed.
Lemma lexes_ident s : ident_okb s = true -> lexes s [TIdent s].
Proof. intros H rest ks Hs L. apply lex_ident; auto. now apply stops_not_ident. Qed.
Lemma lexes_string s : bytes_ok s -> lexes (fmt_string s) [TStr s].
Proof. intros H rest ks Hs L. now apply lex_string. Qed.
Lemma lexes_nat x : lexes (show_N x) [TInt (show_N x) 10].
Proof. intros rest ks Hs L. now apply lex_nat. Qed.
Lemma lexes_int z : lexes (show_Z z) (if (z <? 0)%Z then [TMinus; TInt (show_N (Z.to_N (- z))) 10] else [TInt (show_N (Z.to_N z)) 10]).
Proof.
  intros rest ks Hs L. unfold show_Z. destruct (z <? 0)%Z; [|now apply lex_nat].
  cbn [app]. apply lex_minus. now apply lex_nat.
Qed.
Lemma lexes_decimal s : decimal_text s -> lexes s [TFloat s].
Proof.
  intros (i & f & -> & Hi & Di & Df) rest ks Hs L. destruct i as [|c i]; [contradiction|].
  replace (((c :: i) ++ 46 :: f) ++ rest) with (c :: i ++ 46 :: f ++ rest) by (cbn [app]; rewrite <- app_assoc; reflexivity).
  apply lex_digits_first with (r := rest); [inversion Di; assumption| |exact L].
  change (c :: i ++ 46 :: f ++ rest) with ((c :: i) ++ 46 :: f ++ rest).
  rewrite next_token_digits; [|discriminate|exact Di|reflexivity]. cbn [number].
  pose proof (stops_not_ident _ Hs) as Hn.
  rewrite span_app; [|exact Df|destruct rest as [|c' r]; [exact I|]; now apply not_ident_digit].
  unfold opt_exponent. rewrite (not_ident_exponent _ Hn). rewrite app_nil_r.
  assert (opt_suffix rest = rest) as ->; [|reflexivity].
  destruct rest as [|c' r]; [reflexivity|]. cbn [opt_suffix]. destruct Hs as [-> | [-> | [-> | ->]]]; reflexivity.
Qed.
Lemma lexes_signed (neg : bool) s ts : lexes s ts -> lexes (signed_text neg s) ((if neg then [TMinus] else []) ++ ts).
Proof. intros H rest ks Hs L. destruct neg; cbn [signed_text app]; [apply lex_minus|]; now apply H. Qed.

(** ** Parsing *)

(** tokens that can follow a value: not another string, not an error *)
Definition follows (ts : list tok) : Prop := match ts with TStr _ :: _ | TBad :: _ => False | _ => True end.
Definition value_head (ts : list tok) : Prop :=
  match ts with
  | (TIdent _ | TInt _ _ | TFloat _ | TStr _ | TMinus | TLBrace) :: _ => True
  | _ => False
  end.

Lemma more_strings_stop acc ts : follows ts -> more_strings acc ts = POk acc ts.
Proof. destruct ts as [|k ts]; [reflexivity|]. destruct k; cbn; try reflexivity; contradiction. Qed.

Lemma parse_shown_int z ts : parse_int ((if (z <? 0)%Z then [TMinus; TInt (show_N (Z.to_N (- z))) 10] else [TInt (show_N (Z.to_N z)) 10]) ++ ts)
  = POk ((z <? 0)%Z, Z.to_N (Z.abs z)) ts.
Proof.
  destruct (Z.ltb_spec z 0); cbn [app parse_int]; rewrite show_N_value; repeat f_equal; lia.
Qed.
Lemma parse_shown_signed half z ts : 0 < half -> (- Z.of_N half <= z < Z.of_N half)%Z ->
  parse_signed half ((if (z <? 0)%Z then [TMinus; TInt (show_N (Z.to_N (- z))) 10] else [TInt (show_N (Z.to_N z)) 10]) ++ ts) = POk z ts.
Proof.
  intros Hh Hz. unfold parse_signed. rewrite parse_shown_int. cbn [pbind fst snd].
  destruct (Z.ltb_spec z 0).
  - destruct (N.ltb_spec (Z.to_N (Z.abs z)) (2 * half)); [|lia].
    destruct (N.eqb_spec (Z.to_N (Z.abs z)) half); [f_equal; lia|].
    destruct (N.ltb_spec (Z.to_N (Z.abs z)) half); [f_equal; lia|lia].
  - destruct (N.ltb_spec (Z.to_N (Z.abs z)) half); [f_equal; lia|lia].
Qed.
Lemma parse_shown_unsigned size n ts : n < size -> parse_unsigned size (TInt (show_N n) 10 :: ts) = POk n ts.
Proof.
  intros H. unfold parse_unsigned. cbn [parse_int pbind fst snd]. rewrite show_N_value.
  destruct (N.ltb_spec n size); [reflexivity|lia].
Qed.

Lemma f64_to_f32_neg x : x < sign64 -> f64_to_f32 (x + sign64) = sign32 + f64_to_f32 x.
Proof.
  intros H. unfold f64_to_f32. destruct (N.ltb_spec (x + sign64) sign64); [lia|]. destruct (N.ltb_spec x sign64); [|lia].
  assert ((x + sign64) mod sign64 = x mod sign64) as ->.
  { rewrite <- (N.mul_1_l sign64) at 1. apply N.mod_add. discriminate. }
  destruct (x mod sign64 / 4503599627370496 =? 2047).
  - destruct (_ =? 0); reflexivity.
  - rewrite N.add_0_l. reflexivity.
Qed.

Section Scalars.
  Variables (E : text_externs) (t : tables).
  (** the search finds an entry with the number asked for *)
  Hypothesis Hsearch : forall l z i, tx_search E l z = Some i -> exists j, nth_error l i = Some (z, j).

  (** names of enum values are identifiers and lead back to the number *)
  Definition enum_value_okb (e : nat) (en : enum_inner) (nj : Z * nat) : bool :=
    match nth_error (e_values en) (snd nj) with
    | Some v =>
        ident_okb (id_name (ev_id v)) &&
        match enum_number t e (id_name (ev_id v)) with
        | Some z => (z =? fst nj)%Z
        | None => false
        end
    | None => true
    end.
  Definition enum_text_okb (e : nat) : bool :=
    match nth_error (t_enums t) e with
    | Some en => forallb (enum_value_okb e en) (e_numbers en)
    | None => true
    end.
  Hypothesis Henum : forall e, enum_text_okb e = true.

  Lemma mod_high b sign : 0 < sign -> b < 2 * sign -> sign <= b -> b = b mod sign + sign.
  Proof.
    intros Hs Hb Hle. pose proof (N.div_mod b sign ltac:(lia)) as D.
    assert (b / sign = 1) as Hq.
    { assert (b / sign < 2) by (apply N.div_lt_upper_bound; [lia|]; lia).
      assert (1 <= b / sign) by (apply N.div_le_lower_bound; [lia|lia]). revert H H0. generalize (b / sign). intros; lia. }
    rewrite Hq in D. lia.
  Qed.
  Lemma f64_read b : b < two64 -> reads64 E b = true ->
    exists tb, lexes (tx_show64 E b) tb /\ value_head tb /\ forall ts', parse_float (tb ++ ts') = POk b ts'.
  Proof.
    intros Hb Hr. unfold reads64 in Hr. destruct (f64_nan b) eqn:En.
    - apply andb_true_iff in Hr. destruct Hr as [Hr Hs]. apply N.eqb_eq in Hr. apply bytes_eqb_eq in Hs. rewrite Hs. subst b.
      exists [TIdent (s2b "NaN")]. split; [now apply lexes_ident|]. split; [exact I|]. intros ts'. reflexivity.
    - apply andb_true_iff in Hr. destruct Hr as [Hs Hr]. apply bytes_eqb_eq in Hs.
      revert Hs Hr. generalize (unsigned_text (tx_show64 E b)) as s. intros s -> Hr. destruct (inf_bits inf64 sign64 b) eqn:Ei.
      + apply bytes_eqb_eq in Hr. subst s. unfold inf_bits in Ei. apply N.eqb_eq in Ei.
        exists ((if sign64 <=? b then [TMinus] else []) ++ [TIdent (s2b "inf")]). split; [apply lexes_signed; now apply lexes_ident|].
        assert (b = inf64 \/ b = inf64 + sign64) as Hc.
        { destruct (N.le_gt_cases sign64 b) as [Hle|Hlt]; [right|left].
          - rewrite (mod_high b sign64 ltac:(reflexivity) Hb Hle), Ei. reflexivity.
          - rewrite (N.mod_small _ _ Hlt) in Ei. exact Ei. }
        destruct Hc as [-> | ->]; (split; [exact I|]; intros ts'; reflexivity).
      + apply andb_true_iff in Hr. destruct Hr as [Hs Hp]. apply decimal_textb_ok in Hs. apply N.eqb_eq in Hp.
        exists ((if sign64 <=? b then [TMinus] else []) ++ [TFloat s]).
        split; [apply lexes_signed, lexes_decimal, Hs|].
        destruct (N.leb_spec sign64 b) as [Hle|Hlt]; cbn [app]; (split; [exact I|]); intros ts'; cbn [parse_float]; rewrite Hp.
        * f_equal. unfold f64_neg. pose proof (N.mod_lt b sign64 ltac:(discriminate)). destruct (N.ltb_spec (b mod sign64) sign64); [|lia].
          rewrite (mod_high b sign64 ltac:(reflexivity) Hb Hle) at 2. reflexivity.
        * f_equal. apply N.mod_small, Hlt.
  Qed.
  Lemma f32_read b : b < two32 -> reads32 E b = true ->
    exists tb, lexes (tx_show32 E b) tb /\ value_head tb /\
      forall ts', exists x, parse_float (tb ++ ts') = POk x ts' /\ f64_to_f32 x = b.
  Proof.
    intros Hb Hr. unfold reads32 in Hr. destruct (f32_nan b) eqn:En.
    - apply andb_true_iff in Hr. destruct Hr as [Hr Hs]. apply N.eqb_eq in Hr. apply bytes_eqb_eq in Hs. rewrite Hs. subst b.
      exists [TIdent (s2b "NaN")]. split; [now apply lexes_ident|]. split; [exact I|]. intros ts'. exists nan64. split; reflexivity.
    - apply andb_true_iff in Hr. destruct Hr as [Hs Hr]. apply bytes_eqb_eq in Hs.
      revert Hs Hr. generalize (unsigned_text (tx_show32 E b)) as s. intros s -> Hr. destruct (inf_bits inf32 sign32 b) eqn:Ei.
      + apply bytes_eqb_eq in Hr. subst s. unfold inf_bits in Ei. apply N.eqb_eq in Ei.
        exists ((if sign32 <=? b then [TMinus] else []) ++ [TIdent (s2b "inf")]). split; [apply lexes_signed; now apply lexes_ident|].
        destruct (N.leb_spec sign32 b) as [Hle|Hlt].
        * rewrite (mod_high b sign32 ltac:(reflexivity) Hb Hle), Ei. split; [exact I|]. intros ts'. exists (f64_neg inf64). split; reflexivity.
        * rewrite (N.mod_small _ _ Hlt) in Ei. subst b. split; [exact I|]. intros ts'. exists inf64. split; reflexivity.
      + apply andb_true_iff in Hr. destruct Hr as [Hs Hr]. apply decimal_textb_ok in Hs. apply N.eqb_eq in Hr.
        exists ((if sign32 <=? b then [TMinus] else []) ++ [TFloat s]).
        split; [apply lexes_signed, lexes_decimal, Hs|].
        destruct (N.leb_spec sign32 b) as [Hle|Hlt]; cbn [app]; (split; [exact I|]); intros ts'; cbn [parse_float].
        * eexists. split; [reflexivity|]. pose proof (f64_parse_bound s) as B. unfold f64_neg.
          assert (f64_parse s < sign64) as B' by (eapply N.le_lt_trans; [exact B|reflexivity]).
          destruct (N.ltb_spec (f64_parse s) sign64); [|lia]. rewrite f64_to_f32_neg by exact B'. rewrite Hr.
          rewrite (mod_high b sign32 ltac:(reflexivity) Hb Hle) at 2. lia.
        * eexists. split; [reflexivity|]. rewrite Hr. apply N.mod_small, Hlt.
  Qed.

  (** floats that the reader gives back *)
  Definition float_back (v : value) : bool :=
    match v with VF32 b => reads32 E b | VF64 b => reads64 E b | _ => true end.

  Lemma int_tokens_head z : value_head (if (z <? 0)%Z then [TMinus; TInt (show_N (Z.to_N (- z))) 10] else [TInt (show_N (Z.to_N z)) 10]).
  Proof. destruct (z <? 0)%Z; exact I. Qed.
  Lemma enum_read e z : i32_ok z = true -> exists b tb, fmt_scalar E t (VEnum z) (Some (KEnum e)) = Some b /\ lexes b tb /\ value_head tb /\
    forall ts', parse_enum t e (tb ++ ts') = POk z ts'.
  Proof.
    intros Hz. cbn [fmt_scalar].
    assert (N : exists b tb, Some (show_Z z) = Some b /\ lexes b tb /\ value_head tb /\ forall ts', parse_enum t e (tb ++ ts') = POk z ts').
    { eexists _, _. split; [reflexivity|]. split; [apply lexes_int|]. split; [apply int_tokens_head|]. intros ts'.
      assert (P : forall ts, parse_signed 2147483648 ts = POk z ts' -> match ts with TMinus :: _ | TInt _ _ :: _ => True | _ => False end -> parse_enum t e ts = POk z ts').
      { intros ts H Hh. destruct ts as [|k ts]; [contradiction|]. destruct k; try contradiction; exact H. }
      apply P; [|destruct (z <? 0)%Z; exact I]. apply parse_shown_signed; [reflexivity|]. unfold i32_ok in Hz. lia. }
    destruct (enum_name E t e z) as [nm|] eqn:En; [|exact N].
    unfold enum_name in En. pose proof (Henum e) as He. unfold enum_text_okb in He. destruct (nth_error (t_enums t) e) as [en|] eqn:Ee; [|discriminate].
    destruct (tx_search E (e_numbers en) z) as [i|] eqn:Ei; [|discriminate]. destruct (Hsearch _ _ _ Ei) as [j Hj]. rewrite Hj in En.
    destruct (nth_error (e_values en) j) as [v|] eqn:Ev; [|discriminate]. injection En as <-.
    rewrite forallb_forall in He. specialize (He _ (nth_error_In _ _ Hj)). unfold enum_value_okb in He. cbn [fst snd] in He. rewrite Ev in He.
    apply andb_true_iff in He. destruct He as [Hi Hn]. destruct (enum_number t e (id_name (ev_id v))) as [z'|] eqn:Ez; [|discriminate].
    apply Z.eqb_eq in Hn. subst z'. eexists _, _. split; [reflexivity|]. split; [apply lexes_ident, Hi|]. split; [exact I|].
    intros ts'. cbn [app parse_enum]. rewrite Ez. reflexivity.
  Qed.

  Definition reads_back (k : kind) (v : value) : Prop :=
    exists b tb, fmt_scalar E t v (Some k) = Some b /\ lexes b tb /\ value_head tb /\
      forall ts', follows ts' -> parse_scalar t k (tb ++ ts') = POk v ts'.
  Lemma bool_back b : reads_back KBool (VBool b).
  Proof.
    exists (show_bool b), [TIdent (show_bool b)]. split; [reflexivity|].
    split; [apply lexes_ident; destruct b; reflexivity|]. split; [exact I|]. intros ts' _. destruct b; reflexivity.
  Qed.
  Lemma signed_back k v z half : fmt_scalar E t v (Some k) = Some (show_Z z) ->
    (forall ts r, parse_signed half ts = POk z r -> parse_scalar t k ts = POk v r) ->
    0 < half -> (- Z.of_N half <= z < Z.of_N half)%Z -> reads_back k v.
  Proof.
    intros Hs Hp Hh Hz. eexists _, _. split; [exact Hs|]. split; [apply lexes_int|]. split; [apply int_tokens_head|].
    intros ts' _. apply Hp. now apply parse_shown_signed.
  Qed.
  Lemma unsigned_back k v n size : fmt_scalar E t v (Some k) = Some (show_N n) ->
    (forall ts r, parse_unsigned size ts = POk n r -> parse_scalar t k ts = POk v r) -> n < size -> reads_back k v.
  Proof.
    intros Hs Hp Hn. eexists _, _. split; [exact Hs|]. split; [apply lexes_nat|]. split; [exact I|].
    intros ts' _. apply Hp. now apply parse_shown_unsigned.
  Qed.
  Lemma i32_back k z : sc_okb k (VI32 z) = true -> reads_back k (VI32 z).
  Proof.
    intros Hok. destruct k; try discriminate Hok; (apply (signed_back _ _ z two31); [reflexivity| |reflexivity|cbn [sc_okb] in Hok; unfold i32_ok in Hok; unfold two31; lia]);
        intros ts r H; unfold parse_scalar; rewrite H; reflexivity.
  Qed.
  Lemma i64_back k z : sc_okb k (VI64 z) = true -> reads_back k (VI64 z).
  Proof.
    intros Hok. destruct k; try discriminate Hok; (apply (signed_back _ _ z two63); [reflexivity| |reflexivity|cbn [sc_okb] in Hok; unfold i64_ok in Hok; unfold two63; lia]);
        intros ts r H; unfold parse_scalar; rewrite H; reflexivity.
  Qed.
  Lemma u32_back k n : sc_okb k (VU32 n) = true -> reads_back k (VU32 n).
  Proof.
    intros Hok. destruct k; try discriminate Hok; (apply (unsigned_back _ _ n (2 * two31)); [reflexivity| |cbn [sc_okb] in Hok; unfold u32_ok in Hok; apply N.ltb_lt in Hok; exact Hok]);
        intros ts r H; unfold parse_scalar; rewrite H; reflexivity.
  Qed.
  Lemma u64_back k n : sc_okb k (VU64 n) = true -> reads_back k (VU64 n).
  Proof.
    intros Hok. destruct k; try discriminate Hok; (apply (unsigned_back _ _ n (2 * two63)); [reflexivity| |cbn [sc_okb] in Hok; unfold u64_ok in Hok; apply N.ltb_lt in Hok; exact Hok]);
        intros ts r H; unfold parse_scalar; rewrite H; reflexivity.
  Qed.
  Lemma f32_back bits : sc_okb KFloat (VF32 bits) = true -> float_back (VF32 bits) = true -> reads_back KFloat (VF32 bits).
  Proof.
    intros Hok Hf. cbn [sc_okb] in Hok. unfold u32_ok in Hok. apply N.ltb_lt in Hok.
      destruct (f32_read bits Hok Hf) as (tb & H1 & H2 & H3). eexists _, tb. split; [reflexivity|]. split; [exact H1|]. split; [exact H2|].
      intros ts' _. destruct (H3 ts') as (x & Hx & Hx'). cbn [parse_scalar]. rewrite Hx. cbn [pbind]. rewrite Hx'. reflexivity.
  Qed.
  Lemma f64_back bits : sc_okb KDouble (VF64 bits) = true -> float_back (VF64 bits) = true -> reads_back KDouble (VF64 bits).
  Proof.
    intros Hok Hf. cbn [sc_okb] in Hok. unfold u64_ok in Hok. apply N.ltb_lt in Hok.
      destruct (f64_read bits Hok Hf) as (tb & H1 & H2 & H3). eexists _, tb. split; [reflexivity|]. split; [exact H1|]. split; [exact H2|].
      intros ts' _. cbn [parse_scalar]. rewrite H3. reflexivity.
  Qed.
  Lemma string_back s : sc_okb KString (VString s) = true -> reads_back KString (VString s).
  Proof.
    intros Hok. cbn [sc_okb] in Hok. apply andb_true_iff in Hok. destruct Hok as [Hb Hu].
      eexists _, _. split; [reflexivity|]. split; [apply lexes_string, bytes_okb_ok, Hb|]. split; [exact I|].
      intros ts' Hts. cbn [parse_scalar app parse_bytes]. rewrite more_strings_stop by exact Hts. cbn [pbind]. rewrite Hu. reflexivity.
  Qed.
  Lemma bytes_back s : sc_okb KBytes (VBytes s) = true -> reads_back KBytes (VBytes s).
  Proof.
    intros Hok. cbn [sc_okb] in Hok.
      eexists _, _. split; [reflexivity|]. split; [apply lexes_string, bytes_okb_ok, Hok|]. split; [exact I|].
      intros ts' Hts. cbn [parse_scalar app parse_bytes]. rewrite more_strings_stop by exact Hts. reflexivity.
  Qed.
  Lemma enum_back i z : sc_okb (KEnum i) (VEnum z) = true -> reads_back (KEnum i) (VEnum z).
  Proof.
    intros Hok. cbn [sc_okb] in Hok.
      destruct (enum_read i _ Hok) as (b & tb & H1 & H2 & H3 & H4). exists b, tb. split; [exact H1|]. split; [exact H2|]. split; [exact H3|].
      intros ts' _. cbn [parse_scalar]. rewrite H4. reflexivity.
  Qed.
  Lemma scalar_read k v : sc_okb k v = true -> float_back v = true -> reads_back k v.
  Proof.
    intros Hok Hf.
    destruct v; try (destruct k; discriminate Hok).
    - destruct k; try discriminate Hok. apply bool_back.
    - now apply i32_back.
    - now apply i64_back.
    - now apply u32_back.
    - now apply u64_back.
    - destruct k; try discriminate Hok. now apply f32_back.
    - destruct k; try discriminate Hok. now apply f64_back.
    - destruct k; try discriminate Hok. now apply string_back.
    - destruct k; try discriminate Hok. now apply bytes_back.
    - destruct k; try discriminate Hok. now apply enum_back.
  Qed.

  (** map keys are printed as the scalars they are *)
  Lemma map_key_text key k : Some (fmt_map_key key) = fmt_scalar E t (mk_value key) k.
  Proof. destruct key; reflexivity. Qed.
End Scalars.
