(** Integer literals of the text format: a specification of their values, and
    the proof that lexer and parser read them so. *)
From Coq Require Import String.
From Verif Require Import Base Wire Unknown Value Descr Fields Codec Float TextLex TextFormat TextParse TextLexProofs.
Open Scope N_scope.

(** ** Specification *)

(** a decimal, octal or hexadecimal literal with an optional minus sign; the
    digits are those after the prefix *)
Inductive base := Dec | Oct | Hex | HexUpper.
Record literal := Lit { l_neg : bool; l_base : base; l_digits : bytes }.

Definition base_value (b : base) : N := match b with Dec => 10 | Oct => 8 | Hex | HexUpper => 16 end.
Definition base_prefix (b : base) : bytes :=
  match b with Dec => [] | Oct => s2b "0" | Hex => s2b "0x" | HexUpper => s2b "0X" end.
Definition lit_text (l : literal) : bytes :=
  (if l_neg l then s2b "-" else []) ++ base_prefix (l_base l) ++ l_digits l.

(** digits 0-9, a-f, A-F *)
Definition digit_value (c : N) : N :=
  if (48 <=? c) && (c <=? 57) then c - 48
  else if (97 <=? c) && (c <=? 102) then c - 97 + 10
  else if (65 <=? c) && (c <=? 70) then c - 65 + 10
  else 99.
(** every digit is one of the base; a decimal literal does not start with zero
    unless it is zero *)
Definition lit_okb (l : literal) : bool :=
  negb (length (l_digits l) =? 0)%nat
  && forallb (fun c => digit_value c <? base_value (l_base l)) (l_digits l)
  && match l_base l, l_digits l with
     | Dec, c :: _ :: _ => negb (c =? 48)
     | _, _ => true
     end.
(** the positional value *)
Fixpoint positional (b : N) (ds : bytes) : N :=
  match ds with
  | [] => 0
  | c :: r => digit_value c * b ^ N.of_nat (length r) + positional b r
  end.
Definition lit_value (l : literal) : Z :=
  let v := Z.of_N (positional (base_value (l_base l)) (l_digits l)) in
  (if l_neg l then - v else v)%Z.

(** the integer kinds with their ranges *)
Definition int_range (k : kind) : option (Z * Z) :=
  match k with
  | KInt32 | KSint32 | KSfixed32 => Some (- 2147483648, 2147483647)%Z
  | KInt64 | KSint64 | KSfixed64 => Some (- 9223372036854775808, 9223372036854775807)%Z
  | KUint32 | KFixed32 => Some (0, 4294967295)%Z
  | KUint64 | KFixed64 => Some (0, 18446744073709551615)%Z
  | _ => None
  end.
Definition int_value (k : kind) (z : Z) : value :=
  match k with
  | KInt32 | KSint32 | KSfixed32 => VI32 z
  | KInt64 | KSint64 | KSfixed64 => VI64 z
  | KUint32 | KFixed32 => VU32 (Z.to_N z)
  | _ => VU64 (Z.to_N z)
  end.
Definition unsigned (k : kind) : bool :=
  match k with KUint32 | KFixed32 | KUint64 | KFixed64 => true | _ => false end.

(** the literal is not continued by what follows: the end of the text, or a
    character that is no letter, digit, underscore or point *)
Definition ends_literal (rest : bytes) : Prop :=
  match rest with [] => True | c :: _ => ident_char c = false /\ c <> 46 end.

(** ** Proofs *)

Definition number_plain (ds rest : bytes) : option (tok * bytes) :=
  match exponent rest with
  | Some (e, r2) => Some (TFloat (ds ++ e), opt_suffix r2)
  | None =>
      match ds with
      | 48 :: ds' =>
          match ds' with
          | [] =>
              match rest with
              | c :: r =>
                  if (c =? 120) || (c =? 88) then
                    match span is_hex r with
                    | ([], _) => int_tok [48] 10 rest
                    | (hs, r1) => int_tok hs 16 r1
                    end
                  else if has_suffix rest then Some (TFloat [48], r)
                  else int_tok [48] 10 rest
              | [] => int_tok [48] 10 rest
              end
          | _ :: _ =>
              match span is_oct ds' with
              | ([], _) => int_tok [48] 10 (ds' ++ rest)
              | (os, r1) => int_tok os 8 (r1 ++ rest)
              end
          end
      | _ =>
          if has_suffix rest then Some (TFloat ds, opt_suffix rest)
          else int_tok ds 10 rest
      end
  end.
Lemma number_is_plain ds rest : match rest with c :: _ => c <> 46 | [] => True end -> number ds rest = number_plain ds rest.
Proof.
  destruct rest as [|c r]; [reflexivity|]. intros H. unfold number.
  destruct c as [|c]; [reflexivity|]. do 6 (destruct c as [c|c|]; try reflexivity). congruence.
Qed.

Lemma not_ident_exponent rest : match rest with c :: _ => ident_char c = false | [] => True end -> exponent rest = None.
Proof.
  destruct rest as [|c r]; [reflexivity|]. intros H. unfold exponent.
  destruct (N.eqb_spec c 101) as [->|_]; [discriminate|]. destruct (N.eqb_spec c 69) as [->|_]; [discriminate|]. reflexivity.
Qed.
Lemma not_ident_touches rest : match rest with c :: _ => ident_char c = false | [] => True end -> touches rest = false.
Proof. destruct rest as [|c r]; [reflexivity|]. unfold ident_char. intros H. apply orb_false_iff in H. exact (proj1 H). Qed.
Lemma not_ident_suffix rest : match rest with c :: _ => ident_char c = false | [] => True end -> has_suffix rest = false.
Proof.
  destruct rest as [|c r]; [reflexivity|]. intros H. unfold has_suffix.
  destruct (N.eqb_spec c 102) as [->|_]; [discriminate|]. destruct (N.eqb_spec c 70) as [->|_]; [discriminate|]. reflexivity.
Qed.
Lemma not_ident_digit c : ident_char c = false -> is_digit c = false.
Proof. unfold ident_char. intros H. apply orb_false_iff in H. exact (proj2 H). Qed.
Lemma not_ident_hex c : ident_char c = false -> is_hex c = false.
Proof.
  intros H. pose proof (not_ident_digit _ H) as D. unfold is_hex. rewrite D. unfold ident_char, ident_start, is_alpha in H.
  apply orb_false_iff in H. destruct H as [H _]. apply orb_false_iff in H. destruct H as [H _].
  apply orb_false_iff in H. destruct H as [A B]. unfold in_range in *. cbn [orb].
  apply orb_false_iff. split.
  - apply andb_false_iff in A. apply andb_false_iff. destruct A as [A|A]; [left; exact A|right].
    apply N.leb_gt in A. apply N.leb_gt. lia.
  - apply andb_false_iff in B. apply andb_false_iff. destruct B as [B|B]; [left; exact B|right].
    apply N.leb_gt in B. apply N.leb_gt. lia.
Qed.

Ltac bool_hyps := repeat match goal with
  | H : (_ && _) = true |- _ => apply andb_prop in H; destruct H
  | H : (_ <=? _) = true |- _ => apply N.leb_le in H
  | H : (_ <? _) = true |- _ => apply N.ltb_lt in H
  | H : (_ =? _) = true |- _ => apply N.eqb_eq in H
  end.

Lemma digit_value_cases c b : digit_value c < b -> b <= 16 ->
  digit_value c = hex_val c /\
  (48 <= c <= 57 /\ digit_value c = c - 48 \/ 97 <= c <= 102 /\ digit_value c = c - 87 \/ 65 <= c <= 70 /\ digit_value c = c - 55).
Proof.
  unfold digit_value, hex_val, is_digit, in_range. intros H B.
  destruct ((48 <=? c) && (c <=? 57)) eqn:E1; bool_hyps; [split; [reflexivity|left; lia]|].
  destruct ((97 <=? c) && (c <=? 102)) eqn:E2; bool_hyps.
  - assert ((65 <=? c) && (c <=? 70) = false) as ->.
    { apply andb_false_iff. right. apply N.leb_gt. lia. }
    split; [lia|right; left; lia].
  - destruct ((65 <=? c) && (c <=? 70)) eqn:E3; bool_hyps; [split; [lia|right; right; lia]|lia].
Qed.
Lemma positional_radix b ds : b <= 16 -> Forall (fun c => digit_value c < b) ds -> radix_val b ds = positional b ds.
Proof.
  intros B H. unfold radix_val.
  assert (forall a, fold_left (fun a c => a * b + hex_val c) ds a = a * b ^ N.of_nat (length ds) + positional b ds) as G.
  { induction H as [|c ds Hc H IH]; intros a; cbn [fold_left positional length]; [cbn; lia|].
    rewrite IH, Nat2N.inj_succ, N.pow_succ_r'. destruct (digit_value_cases _ _ Hc B) as [-> _]. lia. }
  rewrite G. lia.
Qed.

Lemma number_decimal ds rest : ds <> [] -> Forall (fun c => is_digit c = true) ds ->
  match ds with c :: _ :: _ => c <> 48 | _ => True end -> ends_literal rest ->
  number ds rest = Some (TInt ds 10, rest).
Proof.
  intros N0 D Z E. assert (match rest with c :: _ => ident_char c = false | [] => True end) as E'.
  { destruct rest; [exact I|exact (proj1 E)]. }
  rewrite number_is_plain by (destruct rest; [exact I|exact (proj2 E)]).
  unfold number_plain. rewrite (not_ident_exponent _ E'), (not_ident_suffix _ E').
  assert (forall x, int_tok x 10 rest = Some (TInt x 10, rest)) as IT.
  { intros x. unfold int_tok. rewrite (not_ident_touches _ E'). reflexivity. }
  rewrite !IT. destruct ds as [|c ds]; [congruence|]. destruct ds as [|c2 ds].
  - destruct (N.eq_dec c 48) as [->|Hc].
    + destruct rest as [|x r]; [reflexivity|].
      destruct (N.eqb_spec x 120) as [->|_]; [discriminate|]. destruct (N.eqb_spec x 88) as [->|_]; [discriminate|]. reflexivity.
    + destruct c as [|c]; [reflexivity|]. do 6 (destruct c as [c|c|]; try reflexivity). congruence.
  - destruct c as [|c]; [reflexivity|]. do 6 (destruct c as [c|c|]; try reflexivity). congruence.
Qed.
Lemma number_octal os rest : os <> [] -> Forall (fun c => is_oct c = true) os -> ends_literal rest ->
  number (48 :: os) rest = Some (TInt os 8, rest).
Proof.
  intros N0 D E. assert (match rest with c :: _ => ident_char c = false | [] => True end) as E'.
  { destruct rest; [exact I|exact (proj1 E)]. }
  rewrite number_is_plain by (destruct rest; [exact I|exact (proj2 E)]).
  unfold number_plain. rewrite (not_ident_exponent _ E').
  pose proof (span_app is_oct os [] D I) as Sp. rewrite app_nil_r in Sp.
  destruct os as [|c os]; [congruence|]. rewrite Sp. cbn [app]. unfold int_tok. rewrite (not_ident_touches _ E'). reflexivity.
Qed.
Lemma number_hex x hs rest : x = 120 \/ x = 88 -> hs <> [] -> Forall (fun c => is_hex c = true) hs -> ends_literal rest ->
  number [48] (x :: hs ++ rest) = Some (TInt hs 16, rest).
Proof.
  intros X N0 D E. assert (match rest with c :: _ => ident_char c = false | [] => True end) as E'.
  { destruct rest; [exact I|exact (proj1 E)]. }
  rewrite number_is_plain by (destruct X; subst; discriminate).
  assert (exponent (x :: hs ++ rest) = None) as Ex by (destruct X; subst; reflexivity).
  unfold number_plain. rewrite Ex.
  assert ((x =? 120) || (x =? 88) = true) as -> by (destruct X; subst; reflexivity).
  rewrite (span_app is_hex hs rest D).
  - destruct hs as [|h hs]; [congruence|]. unfold int_tok. rewrite (not_ident_touches _ E'). reflexivity.
  - destruct rest; [exact I|apply not_ident_hex; exact E'].
Qed.

(** the tokens of a literal *)
Definition lit_toks (l : literal) : list tok :=
  (if l_neg l then [TMinus] else []) ++ [TInt (l_digits l) (base_value (l_base l))].

Lemma digits_dec ds : Forall (fun c => digit_value c < 10) ds -> Forall (fun c => is_digit c = true) ds.
Proof.
  apply Forall_impl. intros c H. destruct (digit_value_cases c 10 H) as [_ D]; [lia|]. unfold is_digit.
  apply andb_true_intro. split; apply N.leb_le; lia.
Qed.
Lemma digits_oct ds : Forall (fun c => digit_value c < 8) ds -> Forall (fun c => is_oct c = true) ds.
Proof.
  apply Forall_impl. intros c H. destruct (digit_value_cases c 8 H) as [_ D]; [lia|]. unfold is_oct, in_range.
  apply andb_true_intro. split; apply N.leb_le; lia.
Qed.
Lemma digits_hex ds : Forall (fun c => digit_value c < 16) ds -> Forall (fun c => is_hex c = true) ds.
Proof.
  apply Forall_impl. intros c H. destruct (digit_value_cases c 16 H) as [_ D]; [lia|]. unfold is_hex, is_digit, in_range.
  destruct D as [[D _]|[[D _]|[D _]]].
  - assert ((48 <=? c) && (c <=? 57) = true) as ->; [|reflexivity]. apply andb_true_intro. split; apply N.leb_le; lia.
  - rewrite orb_comm. assert ((97 <=? c) && (c <=? 102) = true) as ->; [|reflexivity]. apply andb_true_intro. split; apply N.leb_le; lia.
  - assert ((65 <=? c) && (c <=? 70) = true) as ->; [|rewrite orb_true_r; reflexivity]. apply andb_true_intro. split; apply N.leb_le; lia.
Qed.

Lemma lit_digits_ok l : lit_okb l = true -> l_digits l <> [] /\ Forall (fun c => digit_value c < base_value (l_base l)) (l_digits l).
Proof.
  unfold lit_okb. intros H. bool_hyps. split.
  - intros E. rewrite E in H. discriminate.
  - apply Forall_forall. intros c Hc. rewrite forallb_forall in H1. apply N.ltb_lt, H1, Hc.
Qed.

Lemma lex_digits_first c s k r ks : is_digit c = true -> next_token (c :: s) = Ok (Some (k, r)) -> lex r = Ok ks ->
  lex (c :: s) = Ok (k :: ks).
Proof. intros D H L. eapply lex_token; [apply digit_not_space; exact D|exact H|exact L]. Qed.
Lemma next_token_digits ds rest : ds <> [] -> Forall (fun c => is_digit c = true) ds ->
  match rest with c :: _ => is_digit c = false | [] => True end ->
  next_token (ds ++ rest) = Ok (number ds rest).
Proof.
  intros N0 D R. pose proof (span_app is_digit ds rest D R) as Sp. destruct ds as [|c ds]; [congruence|]. cbn [app] in *.
  unfold next_token. inversion D; subst. rewrite H1.
  assert (ident_start c = false) as ->.
  { unfold is_digit in H1. bool_hyps. unfold ident_start, is_alpha, in_range.
    apply orb_false_iff. split; [|apply N.eqb_neq; lia].
    apply orb_false_iff. split; apply andb_false_iff; left; apply N.leb_gt; lia. }
  rewrite Sp. reflexivity.
Qed.

Lemma lex_unsigned_literal b ds rest ks : lit_okb (Lit false b ds) = true -> ends_literal rest -> lex rest = Ok ks ->
  lex (base_prefix b ++ ds ++ rest) = Ok (TInt ds (base_value b) :: ks).
Proof.
  intros H E L. destruct (lit_digits_ok _ H) as [N0 D]. cbn [l_digits l_base] in N0, D.
  assert (match rest with c :: _ => is_digit c = false | [] => True end) as R.
  { destruct rest; [exact I|]. apply not_ident_digit. exact (proj1 E). }
  destruct b; cbn [base_value base_prefix] in *.
  - pose proof (digits_dec _ D) as D'. cbn [app].
    assert (next_token (ds ++ rest) = Ok (Some (TInt ds 10, rest))) as T.
    { rewrite next_token_digits by assumption. rewrite number_decimal; try assumption; [reflexivity|].
      unfold lit_okb in H. cbn [l_digits l_base] in H. bool_hyps. destruct ds as [|c [|c2 ds]]; try exact I.
      apply negb_true_iff in H0. apply N.eqb_neq in H0. exact H0. }
    destruct ds as [|c ds]; [congruence|]. cbn [app] in *. inversion D'; subst. eapply lex_digits_first; eassumption.
  - pose proof (digits_oct _ D) as D'. change (s2b "0") with [48]. cbn [app].
    eapply lex_digits_first; [reflexivity| |exact L].
    change (48 :: ds ++ rest) with ((48 :: ds) ++ rest). rewrite next_token_digits.
    + rewrite number_octal by assumption. reflexivity.
    + discriminate.
    + constructor; [reflexivity|]. eapply Forall_impl; [|exact D']. intros c Hc. unfold is_oct, in_range in Hc. unfold is_digit.
      bool_hyps. apply andb_true_intro. split; apply N.leb_le; lia.
    + exact R.
  - pose proof (digits_hex _ D) as D'. change (s2b "0x") with [48; 120]. cbn [app].
    eapply lex_digits_first; [reflexivity| |exact L].
    change (48 :: 120 :: ds ++ rest) with ([48] ++ (120 :: ds ++ rest)).
    rewrite next_token_digits; [|discriminate|constructor; [reflexivity|constructor]|reflexivity].
    rewrite number_hex; [reflexivity|left; reflexivity|assumption..].
  - pose proof (digits_hex _ D) as D'. change (s2b "0X") with [48; 88]. cbn [app].
    eapply lex_digits_first; [reflexivity| |exact L].
    change (48 :: 88 :: ds ++ rest) with ([48] ++ (88 :: ds ++ rest)).
    rewrite next_token_digits; [|discriminate|constructor; [reflexivity|constructor]|reflexivity].
    rewrite number_hex; [reflexivity|right; reflexivity|assumption..].
Qed.
Lemma lex_literal l rest ks : lit_okb l = true -> ends_literal rest -> lex rest = Ok ks ->
  lex (lit_text l ++ rest) = Ok (lit_toks l ++ ks).
Proof.
  intros H E L. destruct l as [neg b ds]. unfold lit_text, lit_toks. cbn [l_neg l_base l_digits].
  assert (lit_okb (Lit false b ds) = true) as H' by exact H.
  pose proof (lex_unsigned_literal b ds rest ks H' E L) as LL. rewrite <- !app_assoc. destruct neg; cbn [app].
  - change (s2b "-") with [45]. cbn [app]. apply lex_minus. exact LL.
  - exact LL.
Qed.

Lemma parse_int_literal l ks : lit_okb l = true ->
  parse_int (lit_toks l ++ ks) = POk (l_neg l, positional (base_value (l_base l)) (l_digits l)) ks.
Proof.
  intros H. destruct (lit_digits_ok _ H) as [_ D]. unfold lit_toks, parse_int.
  assert (base_value (l_base l) <= 16) as B by (destruct (l_base l); cbn; lia).
  rewrite <- (positional_radix _ _ B D). destruct (l_neg l); reflexivity.
Qed.
Lemma parse_literal t k lo hi l ks : int_range k = Some (lo, hi) -> lit_okb l = true ->
  parse_scalar t k (lit_toks l ++ ks) =
  if negb (l_neg l && unsigned k) && ((lo <=? lit_value l)%Z && (lit_value l <=? hi)%Z)
  then POk (int_value k (lit_value l)) ks else PErr PIntRange.
Proof.
  intros R H. pose proof (parse_int_literal l ks H) as P.
  set (v := positional (base_value (l_base l)) (l_digits l)) in *.
  assert (lit_value l = if l_neg l then (- Z.of_N v)%Z else Z.of_N v) as V by reflexivity.
  assert (forall half, (half = 2147483648 \/ half = 9223372036854775808) ->
    parse_signed half (lit_toks l ++ ks) =
    if ((- Z.of_N half <=? lit_value l)%Z && (lit_value l <=? Z.of_N half - 1)%Z) then POk (lit_value l) ks else PErr PIntRange) as S.
  { intros half Hh. unfold parse_signed. rewrite P. cbn [pbind fst snd]. rewrite V.
    destruct (l_neg l).
    - destruct (N.ltb_spec v (2 * half)).
      + destruct (N.eqb_spec v half) as [->|].
        * assert (((- Z.of_N half <=? - Z.of_N half) && (- Z.of_N half <=? Z.of_N half - 1))%Z = true) as ->; [|reflexivity].
          apply andb_true_intro. split; apply Z.leb_le; destruct Hh; subst; lia.
        * destruct (N.ltb_spec v half).
          -- assert (((- Z.of_N half <=? - Z.of_N v) && (- Z.of_N v <=? Z.of_N half - 1))%Z = true) as ->; [|reflexivity].
             apply andb_true_intro. split; apply Z.leb_le; destruct Hh; subst; lia.
          -- assert (((- Z.of_N half <=? - Z.of_N v) && (- Z.of_N v <=? Z.of_N half - 1))%Z = false) as ->; [|reflexivity].
             apply andb_false_iff. left. apply Z.leb_gt. lia.
      + assert (((- Z.of_N half <=? - Z.of_N v) && (- Z.of_N v <=? Z.of_N half - 1))%Z = false) as ->; [|reflexivity].
        apply andb_false_iff. left. apply Z.leb_gt. destruct Hh; subst; lia.
    - destruct (N.ltb_spec v half).
      + assert (((- Z.of_N half <=? Z.of_N v) && (Z.of_N v <=? Z.of_N half - 1))%Z = true) as ->; [|reflexivity].
        apply andb_true_intro. split; apply Z.leb_le; lia.
      + assert (((- Z.of_N half <=? Z.of_N v) && (Z.of_N v <=? Z.of_N half - 1))%Z = false) as ->; [|reflexivity].
        apply andb_false_iff. right. apply Z.leb_gt. lia. }
  assert (forall size, parse_unsigned size (lit_toks l ++ ks) =
    if negb (l_neg l) && ((0 <=? lit_value l)%Z && (lit_value l <=? Z.of_N size - 1)%Z) then POk (Z.to_N (lit_value l)) ks
    else PErr PIntRange) as U.
  { intros size. unfold parse_unsigned. rewrite P. cbn [pbind fst snd]. rewrite V.
    destruct (l_neg l); [reflexivity|]. cbn [negb andb]. rewrite N2Z.id. destruct (N.ltb_spec v size).
    - assert (((0 <=? Z.of_N v) && (Z.of_N v <=? Z.of_N size - 1))%Z = true) as ->; [|reflexivity].
      apply andb_true_intro. split; apply Z.leb_le; lia.
    - assert (((0 <=? Z.of_N v) && (Z.of_N v <=? Z.of_N size - 1))%Z = false) as ->; [|reflexivity].
      apply andb_false_iff. right. apply Z.leb_gt. lia. }
  destruct k; try discriminate R; injection R as <- <-; cbn [parse_scalar unsigned int_value];
    rewrite ?andb_false_r, ?andb_true_r; cbn [negb andb];
    first [rewrite (S two31) by (left; reflexivity) | rewrite (S two63) by (right; reflexivity) | rewrite U];
    cbn [Z.of_N two31 two63 N.mul Pos.mul Z.sub Z.opp Z.add Z.pos_sub Pos.pred_double];
    match goal with |- pbind (if ?c then _ else _) _ = _ => destruct c end; reflexivity.
Qed.
