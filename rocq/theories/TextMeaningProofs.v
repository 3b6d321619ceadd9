(** The parser reads exactly the texts with a meaning, and gives that meaning. *)
From Coq Require Import String.
From Verif Require Import Base BaseProofs Wire WireProofs LoopProofs Unknown UnknownProofs Value Descr
  Fields Codec DescrOk DescrProofs FieldsProofs LenProofs MergeProofs RoundSpec RoundProofs EncBytes History
  Float TextLex TextFormat TextParse TextLexProofs TextTokens TextSafe TextMeaning.
Open Scope list_scope.
Open Scope N_scope.

Definition follow (r : list tok) : Prop := match r with TStr _ :: _ | TBad :: _ => False | _ => True end.

Lemma unexpected_no {A} ts (a : A) r : unexpected ts = POk a r -> False.
Proof. destruct ts as [|[] ts]; discriminate. Qed.

(** ** Scalars *)
Lemma parse_int_iff ts neg n r : parse_int ts = POk (neg, n) r <-> exists pre, ts = pre ++ r /\ int_lit pre neg n.
Proof.
  split.
  - unfold parse_int. destruct ts as [|k ts]; [discriminate|]. intros H.
    destruct (match k :: ts with TMinus :: r0 => (true, r0) | _ => (false, k :: ts) end) as [ng r0] eqn:E.
    assert (Er : k :: ts = (if ng then [TMinus] else []) ++ r0).
    { destruct k; injection E as <- <-; reflexivity. }
    rewrite Er. destruct r0 as [|[] r0]; try (exfalso; exact (unexpected_no _ _ _ H)).
    injection H as <- <- <-. exists ((if ng then [TMinus] else []) ++ [TInt digits radix]). split; [now rewrite <- app_assoc|]. exists digits, radix. auto.
  - intros (pre & -> & ds & radix & -> & ->). destruct neg; reflexivity.
Qed.

Lemma parse_signed_iff half ts z r : 0 < half ->
  parse_signed half ts = POk z r <-> exists pre, ts = pre ++ r /\ signed_lit pre z /\ (- Z.of_N half <= z < Z.of_N half)%Z.
Proof.
  intros Hh. unfold parse_signed. split.
  - destruct (parse_int ts) as [[ng n] r0| | |] eqn:E; cbn [pbind fst snd]; try discriminate. apply parse_int_iff in E. destruct E as (pre & -> & L).
    destruct ng.
    + destruct (N.ltb_spec n (2 * half)); [|discriminate]. destruct (N.eqb_spec n half).
      * intros H'; injection H' as <- <-. subst n. exists pre. split; [reflexivity|]. split; [exists true, half; auto|lia].
      * destruct (N.ltb_spec n half); [|discriminate]. intros H'; injection H' as <- <-. exists pre. split; [reflexivity|]. split; [exists true, n; auto|lia].
    + destruct (N.ltb_spec n half); [|discriminate]. intros H'; injection H' as <- <-. exists pre. split; [reflexivity|]. split; [exists false, n; auto|lia].
  - intros (pre & -> & (ng & n & L & ->) & B). rewrite (proj2 (parse_int_iff (pre ++ r) ng n r)) by eauto. cbn [pbind fst snd]. destruct ng.
    + destruct (N.ltb_spec n (2 * half)); [|lia]. destruct (N.eqb_spec n half); [subst; reflexivity|]. destruct (N.ltb_spec n half); [reflexivity|lia].
    + destruct (N.ltb_spec n half); [reflexivity|lia].
Qed.

Lemma parse_unsigned_iff size ts n r : parse_unsigned size ts = POk n r <-> exists pre, ts = pre ++ r /\ int_lit pre false n /\ n < size.
Proof.
  unfold parse_unsigned. split.
  - destruct (parse_int ts) as [[ng x] r0| | |] eqn:E; cbn [pbind fst snd]; try discriminate. apply parse_int_iff in E. destruct E as (pre & -> & L).
    destruct ng; [discriminate|]. destruct (N.ltb_spec x size); [|discriminate]. intros H'; injection H' as <- <-. eauto.
  - intros (pre & -> & L & B). rewrite (proj2 (parse_int_iff (pre ++ r) false n r)) by eauto. cbn [pbind fst snd]. destruct (N.ltb_spec n size); [reflexivity|lia].
Qed.

Lemma bytes_eqb_iff a b : bytes_eqb a b = true <-> a = b.
Proof. apply bytes_eqb_eq. Qed.

Lemma parse_float_iff ts b r : parse_float ts = POk b r <-> exists pre, ts = pre ++ r /\ float_lit pre b.
Proof.
  split.
  - unfold parse_float. destruct ts as [|k ts]; [discriminate|]. intros H.
    destruct (match k :: ts with TMinus :: r0 => (true, r0) | _ => (false, k :: ts) end) as [ng r0] eqn:E.
    assert (Er : k :: ts = (if ng then [TMinus] else []) ++ r0).
    { destruct k; injection E as <- <-; reflexivity. }
    rewrite Er. clear E Er k ts.
    assert (G : forall k r1 b', float_name k b' -> r0 = k :: r1 -> POk (if ng then f64_neg b' else b') r1 = POk b r ->
      exists pre, (if ng then [TMinus] else []) ++ r0 = pre ++ r /\ float_lit pre b).
    { intros k r1 b' F -> H'. injection H' as <- <-. exists ((if ng then [TMinus] else []) ++ [k]). split; [now rewrite <- app_assoc|]. exists ng, k, b'. auto. }
    destruct r0 as [|k r0]; [discriminate|].
    destruct k as [s|ds radix|s|s| | | | | | | | | | | | |] eqn:Ek; try (exfalso; exact (unexpected_no _ _ _ H)).
    all: subst k.
    + unfold eq_ignore_case in H. destruct (bytes_eqb (lowercase s) (s2b "inf")) eqn:E1; cbn [orb] in H.
      { eapply G; [|reflexivity|exact H]. constructor. left. now apply bytes_eqb_iff. }
      destruct (bytes_eqb (lowercase s) (s2b "infinity")) eqn:E2.
      { eapply G; [|reflexivity|exact H]. constructor. right. now apply bytes_eqb_iff. }
      destruct (bytes_eqb (lowercase s) (s2b "nan")) eqn:E3; [|discriminate].
      eapply G; [|reflexivity|exact H]. constructor. now apply bytes_eqb_iff.
    + destruct (N.eqb_spec radix 10) as [->|Hr].
      * eapply G; [|reflexivity|exact H]. constructor.
      * exfalso. destruct radix as [|p]; [discriminate|]. repeat (destruct p as [p|p|]; try discriminate). apply Hr; reflexivity.
    + eapply G; [|reflexivity|exact H]. constructor.
  - intros (pre & -> & ng & k & b' & -> & F & ->). unfold parse_float.
    assert (G : forall r0, (if ng then [TMinus] else []) ++ [k] ++ r0 <> [] /\
      match (if ng then [TMinus] else []) ++ [k] ++ r0 with TMinus :: r => (true, r) | _ => (false, (if ng then [TMinus] else []) ++ [k] ++ r0) end = (ng, k :: r0)).
    { intros r0. destruct ng; [split; [discriminate|reflexivity]|]. split; [discriminate|]. destruct F; reflexivity. }
    rewrite <- app_assoc. destruct (G r) as [N1 G1]. destruct ((if ng then [TMinus] else []) ++ [k] ++ r) as [|k0 l]; [congruence|].
    rewrite G1. destruct F as [s|ds|s F|s F]; try reflexivity; unfold eq_ignore_case.
    + destruct F as [F|F]; rewrite F; reflexivity.
    + rewrite F. reflexivity.
Qed.

Lemma in3 {A} (x a b c : A) : In x [a; b; c] <-> x = a \/ x = b \/ x = c.
Proof. cbn [In]. split; [intros [<-|[<-|[<-|[]]]]; auto|intros [->|[->| ->]]; auto]. Qed.
Lemma or3 s a b c : bytes_eqb s a || bytes_eqb s b || bytes_eqb s c = true <-> In s [a; b; c].
Proof. rewrite in3, !orb_true_iff, !bytes_eqb_iff. tauto. Qed.

Lemma parse_bool_iff ts b r : parse_bool ts = POk b r <-> exists pre, ts = pre ++ r /\ bool_lit pre b.
Proof.
  split.
  - destruct ts as [|k ts]; [discriminate|]. destruct k; try discriminate; cbn [parse_bool].
    + destruct (bytes_eqb s _ || _ || _) eqn:E1.
      * intros H'; injection H' as <- <-. exists [TIdent s]. split; [reflexivity|]. apply bl_false. now apply or3.
      * destruct (bytes_eqb s (s2b "true") || _ || _) eqn:E2; [|discriminate]. intros H'; injection H' as <- <-.
        exists [TIdent s]. split; [reflexivity|]. apply bl_true. now apply or3.
    + destruct (N.eqb_spec (radix_val radix digits) 1).
      * intros H'; injection H' as <- <-. exists [TInt digits radix]. split; [reflexivity|]. apply bl_1. exists digits, radix. auto.
      * destruct (N.eqb_spec (radix_val radix digits) 0); [|discriminate]. intros H'; injection H' as <- <-.
        exists [TInt digits radix]. split; [reflexivity|]. apply bl_0. exists digits, radix. auto.
  - intros (pre & -> & B). destruct B as [s B|s B|ts (ds & radix & -> & E)|ts (ds & radix & -> & E)]; cbn [app parse_bool].
    + apply in3 in B. destruct B as [->|[->| ->]]; reflexivity.
    + apply or3 in B. rewrite B. reflexivity.
    + rewrite <- E. reflexivity.
    + rewrite <- E. reflexivity.
Qed.

Lemma more_strings_iff ts : forall acc b r, more_strings acc ts = POk b r <->
  follow r /\ exists ss, ts = map TStr ss ++ r /\ b = acc ++ concat ss.
Proof.
  induction ts as [|k ts IH]; intros acc b r.
  - cbn [more_strings]. split.
    + intros H; injection H as <- <-. split; [exact Logic.I|]. exists []. split; [reflexivity|]. cbn [concat]. now rewrite app_nil_r.
    + intros (_ & [|s ss] & E & ->); [|discriminate]. cbn in E. subst r. cbn [concat]. now rewrite app_nil_r.
  - assert (NS : forall (P : follow (k :: ts)), POk acc (k :: ts) = POk b r <-> follow r /\ exists ss, k :: ts = map TStr ss ++ r /\ b = acc ++ concat ss).
    { intros P. split.
      - intros H; injection H as <- <-. split; [exact P|]. exists []. cbn [concat map app]. now rewrite app_nil_r.
      - intros (_ & [|s ss] & E & ->); cbn [map app concat] in *; [now rewrite <- E, app_nil_r|]. injection E as -> _. contradiction P. }
    destruct k; cbn [more_strings]; try (apply NS; exact Logic.I).
    + rewrite IH. split.
      * intros (F & ss & -> & ->). split; [exact F|]. exists (s :: ss). split; [reflexivity|]. cbn [concat]. now rewrite app_assoc.
      * intros (F & [|s' ss] & E & ->); cbn [map app] in E.
        -- subst r. contradiction F.
        -- injection E as <- ->. split; [exact F|]. exists ss. split; [reflexivity|]. cbn [concat]. now rewrite app_assoc.
    + split; [discriminate|]. intros (F & [|s' ss] & E & ->); cbn [map app] in E; [subst r; contradiction F|discriminate].
Qed.

Lemma parse_bytes_iff ts b r : parse_bytes ts = POk b r <-> follow r /\ exists ss, ss <> [] /\ ts = map TStr ss ++ r /\ b = concat ss.
Proof.
  split.
  - destruct ts as [|[] ts]; try discriminate. cbn [parse_bytes]. rewrite more_strings_iff. intros (F & ss & -> & ->). split; [exact F|].
    exists (s :: ss). split; [discriminate|]. auto.
  - intros (F & [|s ss] & N1 & -> & ->); [congruence|]. cbn [map app parse_bytes]. apply more_strings_iff. split; [exact F|]. exists ss. auto.
Qed.

Lemma parse_enum_iff t e ts z r : parse_enum t e ts = POk z r <->
  exists pre, ts = pre ++ r /\ ((exists s, pre = [TIdent s] /\ enum_number t e s = Some z) \/ signed_lit pre z /\ (- 2 ^ 31 <= z < 2 ^ 31)%Z).
Proof.
  assert (SG : forall z, (- Z.of_N 2147483648 <= z < Z.of_N 2147483648 <-> - 2 ^ 31 <= z < 2 ^ 31)%Z) by (intros; reflexivity).
  split.
  - destruct ts as [|k ts]; [discriminate|]. intros H.
    assert (S : parse_signed 2147483648 (k :: ts) = POk z r ->
      exists pre, k :: ts = pre ++ r /\ ((exists s, pre = [TIdent s] /\ enum_number t e s = Some z) \/ signed_lit pre z /\ (- 2 ^ 31 <= z < 2 ^ 31)%Z)).
    { intros H'. apply parse_signed_iff in H'; [|lia]. destruct H' as (pre & E & L & B). exists pre. split; [exact E|]. right. split; [exact L|]. now apply SG. }
    destruct k; cbn [parse_enum] in H; try discriminate; try (apply S; exact H).
    destruct (enum_number t e s) eqn:E; [|discriminate]. injection H as <- <-. exists [TIdent s]. split; [reflexivity|]. left. eauto.
  - intros (pre & -> & [(s & -> & E)|[L B]]).
    + cbn [app parse_enum]. now rewrite E.
    + assert (Q : parse_signed 2147483648 (pre ++ r) = POk z r) by (apply parse_signed_iff; [lia|]; exists pre; rewrite SG; auto).
      destruct L as (ng & n & (ds & radix & -> & _) & _). destruct ng; exact Q.
Qed.

Lemma int_lit_text ts ng n : int_lit ts ng n -> lit_text ts.
Proof. intros (ds & radix & -> & _). constructor. Qed.
Lemma signed_lit_text ts z : signed_lit ts z -> lit_text ts.
Proof. intros (ng & n & L & _). eapply int_lit_text; exact L. Qed.
Lemma float_lit_text ts b : float_lit ts b -> lit_text ts.
Proof. intros (ng & k & b' & -> & F & _). destruct F; constructor. Qed.
Lemma bool_lit_text ts b : bool_lit ts b -> lit_text ts.
Proof. intros [s _|s _|l L|l L]; [apply (lt_ident s false)|apply (lt_ident s false)| |]; eapply int_lit_text; exact L. Qed.
Lemma says_text t k ts v : says t k ts v -> lit_text ts.
Proof.
  intros S. inversion S; subst; eauto using bool_lit_text, float_lit_text, int_lit_text, signed_lit_text.
  - destruct ss as [|b ss]; [congruence|]. apply (lt_strings b ss).
  - destruct ss as [|b ss]; [congruence|]. apply (lt_strings b ss).
  - apply (lt_ident s false).
Qed.

Lemma parse_scalar_sound t k ts v r : kind_msg k = None -> parse_scalar t k ts = POk v r ->
  exists pre, ts = pre ++ r /\ says t k pre v.
Proof.
  intros K H. destruct k; try discriminate K; cbn [parse_scalar] in H; unfold two31, two63 in H;
    match type of H with pbind ?p _ = _ => destruct p as [x r0| | |] eqn:E end; cbn [pbind] in H; try discriminate H.
  all: try (destruct (utf8_valid x) eqn:U; [|discriminate H]); injection H as <- <-.
  all: first [apply parse_float_iff in E | apply parse_bool_iff in E | apply parse_bytes_iff in E | apply parse_enum_iff in E
             | apply parse_signed_iff in E; [|lia] | apply parse_unsigned_iff in E].
  all: try (destruct E as (F & ss & N1 & -> & ->); exists (map TStr ss); split; [reflexivity|constructor; assumption]).
  all: try (destruct E as (pre & -> & [(s & -> & E)|[L B]]); [exists [TIdent s]|exists pre]; (split; [reflexivity|]); constructor; assumption).
  all: try (destruct E as (pre & -> & L & B); exists pre; split; [reflexivity|constructor; [cbn [In]; tauto|exact L|exact B]]).
  all: destruct E as (pre & -> & L); exists pre; split; [reflexivity|constructor; exact L].
Qed.

Lemma parse_scalar_complete t k pre v r : says t k pre v -> follow r -> parse_scalar t k (pre ++ r) = POk v r.
Proof.
  intros S F. inversion S; subst; cbn [parse_scalar].
  - rewrite (proj2 (parse_bool_iff (pre ++ r) b r)) by eauto. reflexivity.
  - assert (E : parse_signed two31 (pre ++ r) = POk z r) by (apply parse_signed_iff; [reflexivity|]; exists pre; auto).
    apply in3 in H. destruct H as [->|[->| ->]]; cbn [parse_scalar]; rewrite E; reflexivity.
  - assert (E : parse_signed two63 (pre ++ r) = POk z r) by (apply parse_signed_iff; [reflexivity|]; exists pre; auto).
    apply in3 in H. destruct H as [->|[->| ->]]; cbn [parse_scalar]; rewrite E; reflexivity.
  - assert (E : parse_unsigned (2 * two31) (pre ++ r) = POk n r) by (apply parse_unsigned_iff; exists pre; auto).
    destruct H as [<-|[<-|[]]]; cbn [parse_scalar]; rewrite E; reflexivity.
  - assert (E : parse_unsigned (2 * two63) (pre ++ r) = POk n r) by (apply parse_unsigned_iff; exists pre; auto).
    destruct H as [<-|[<-|[]]]; cbn [parse_scalar]; rewrite E; reflexivity.
  - rewrite (proj2 (parse_float_iff (pre ++ r) b r)) by eauto. reflexivity.
  - rewrite (proj2 (parse_float_iff (pre ++ r) b r)) by eauto. reflexivity.
  - rewrite (proj2 (parse_bytes_iff (map TStr ss ++ r) (concat ss) r)) by eauto. cbn [pbind]. now rewrite H0.
  - rewrite (proj2 (parse_bytes_iff (map TStr ss ++ r) (concat ss) r)) by eauto. reflexivity.
  - rewrite (proj2 (parse_enum_iff t e ([TIdent s] ++ r) z r)) by eauto 8. reflexivity.
  - rewrite (proj2 (parse_enum_iff t e (pre ++ r) z r)) by eauto 8. reflexivity.
Qed.
