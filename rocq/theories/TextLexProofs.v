(** Facts about the lexer and the primitive printers of the text format. *)
From Coq Require Import String.
From Verif Require Import Base Wire Float TextLex TextFormat.
Open Scope N_scope.

(** ** Fuel *)

Lemma span_length p s a b : span p s = (a, b) -> s = a ++ b.
Proof.
  revert a b. induction s as [|c s IH]; intros a b; cbn [span]; [intros [= <- <-]; reflexivity|].
  destruct (p c); [|intros [= <- <-]; reflexivity]. destruct (span p s) as [x y] eqn:E. intros [= <- <-].
  rewrite (IH _ _ eq_refl). reflexivity.
Qed.
Lemma span_all p s a b : span p s = (a, b) -> Forall (fun c => p c = true) a.
Proof.
  revert a b. induction s as [|c s IH]; intros a b; cbn [span]; [intros [= <- <-]; constructor|].
  destruct (p c) eqn:P; [|intros [= <- <-]; constructor]. destruct (span p s) as [x y] eqn:E. intros [= <- <-].
  constructor; [exact P|exact (IH _ _ eq_refl)].
Qed.
Lemma span_n_length n p s a b : span_n n p s = (a, b) -> s = a ++ b.
Proof.
  revert s a b. induction n as [|n IH]; intros s a b; cbn [span_n]; [intros [= <- <-]; reflexivity|].
  destruct s as [|c s]; [intros [= <- <-]; reflexivity|].
  destruct (p c); [|intros [= <- <-]; reflexivity]. destruct (span_n n p s) as [x y] eqn:E. intros [= <- <-].
  rewrite (IH _ _ _ E). reflexivity.
Qed.
(** a maximal run followed by something that stops it *)
Lemma span_app p a b : Forall (fun c => p c = true) a ->
  match b with c :: _ => p c = false | [] => True end -> span p (a ++ b) = (a, b).
Proof.
  intros H B. induction H as [|c a Hc H IH]; cbn [app span].
  - destruct b as [|c b]; [reflexivity|]. cbn [span]. rewrite B. reflexivity.
  - rewrite Hc, IH. reflexivity.
Qed.

Lemma escape_shorter s bs r : escape s = Some (bs, r) -> (length r < length s)%nat.
Proof.
  destruct s as [|c s]; [discriminate|]. unfold escape.
  destruct ((c =? 120) || (c =? 88)).
  - destruct (span_n 2 is_hex s) as [hs r'] eqn:E. apply span_n_length in E. destruct hs; [discriminate|].
    intros [= <- <-]. rewrite E. cbn [length app]. rewrite app_length. lia.
  - destruct (is_oct c) eqn:O.
    + destruct (span_n 3 is_oct (c :: s)) as [os r'] eqn:E. cbn [span_n] in E. rewrite O in E.
      destruct (match s with [] => _ | _ => _ end) as [x y] eqn:E2. injection E as <- <-.
      assert (s = x ++ y) as -> by (apply (span_n_length 2 is_oct); exact E2).
      destruct (radix_val 8 (c :: x) <? 256); [|discriminate]. intros [= <- <-]. cbn [length]. rewrite app_length. lia.
    + destruct ((c =? 117) || (c =? 85)).
      * destruct (span_n _ is_hex s) as [hs r'] eqn:E. apply span_n_length in E.
        destruct (_ && _); [|discriminate]. intros [= <- <-]. rewrite E. cbn [length]. rewrite app_length. lia.
      * destruct (char_escape c); [|discriminate]. intros [= <- <-]. cbn [length]. lia.
Qed.

Lemma string_loop_shorter n q s : forall v r, string_loop n q s = Ok (Some (v, r)) -> (length r < length s)%nat.
Proof.
  revert s. induction n as [|n IH]; intros s v r; [discriminate|]. cbn [string_loop].
  destruct s as [|c s]; [discriminate|]. destruct (c =? q); [intros [= <- <-]; cbn; lia|].
  destruct (c =? 92).
  - destruct (escape s) as [[bs r']|] eqn:E; [|discriminate]. apply escape_shorter in E.
    destruct (string_loop n q r') as [[[v' r'']|]| | |] eqn:L; cbn [rbind]; try discriminate.
    intros [= <- <-]. apply IH in L. cbn [length]. lia.
  - destruct ((c =? 0) || (c =? 10)); [discriminate|].
    destruct (string_loop n q s) as [[[v' r'']|]| | |] eqn:L; cbn [rbind]; try discriminate.
    intros [= <- <-]. apply IH in L. cbn [length]. lia.
Qed.
Lemma string_loop_total n q s : (length s < n)%nat -> exists o, string_loop n q s = Ok o.
Proof.
  revert s. induction n as [|n IH]; intros s L; [lia|]. cbn [string_loop].
  destruct s as [|c s]; [eexists; reflexivity|]. cbn [length] in L. destruct (c =? q); [eexists; reflexivity|].
  destruct (c =? 92).
  - destruct (escape s) as [[bs r']|] eqn:E; [|eexists; reflexivity]. apply escape_shorter in E.
    destruct (IH r') as [o ->]; [lia|]. eexists; reflexivity.
  - destruct ((c =? 0) || (c =? 10)); [eexists; reflexivity|].
    destruct (IH s) as [o ->]; [lia|]. eexists; reflexivity.
Qed.

Lemma opt_suffix_le s : (length (opt_suffix s) <= length s)%nat.
Proof. destruct s as [|c s]; cbn; [lia|]. destruct (_ || _); cbn; lia. Qed.
Lemma exponent_le s e r : exponent s = Some (e, r) -> (length r <= length s)%nat.
Proof.
  destruct s as [|c s]; [discriminate|]. unfold exponent. destruct (_ || _); [|discriminate].
  set (p := match s with 43 :: r' => ([43], r') | 45 :: r' => ([45], r') | _ => ([], s) end).
  assert (length (snd p) <= length s)%nat as Hp.
  { unfold p. destruct s as [|x s]; [cbn; lia|]. cbn [length].
    destruct x as [|x]; [cbn; lia|]. do 6 (destruct x as [x|x|]; try (cbn; lia)). }
  destruct p as [sg r1]. cbn [snd] in Hp. destruct (span is_digit r1) as [ds r2] eqn:E. apply span_length in E.
  destruct ds; [discriminate|]. intros [= <- <-]. rewrite E in Hp. cbn [length] in *. rewrite app_length in Hp.
  cbn [length] in Hp. lia.
Qed.
Lemma opt_exponent_le s e r : opt_exponent s = (e, r) -> (length r <= length s)%nat.
Proof.
  unfold opt_exponent. destruct (exponent s) as [[e' r']|] eqn:E; intros [= <- <-]; [apply exponent_le in E; exact E|lia].
Qed.
Lemma int_tok_rest ds radix rest k r : int_tok ds radix rest = Some (k, r) -> r = rest.
Proof. unfold int_tok. destruct (touches rest); congruence. Qed.

Lemma number_shorter ds rest k r : ds <> [] -> number ds rest = Some (k, r) -> (length r < length (ds ++ rest))%nat.
Proof.
  intros N0. rewrite app_length. assert (1 <= length ds)%nat as L by (destruct ds; [congruence|cbn; lia]).
  assert (forall (X : option (tok * bytes)),
    (X = Some (k, r) -> (length r <= length rest)%nat \/ (length r < length ds + length rest)%nat) ->
    X = Some (k, r) -> (length r < length ds + length rest)%nat) as W by (intros X HX E; destruct (HX E); lia).
  unfold number.
  assert (forall r1, rest = 46 :: r1 ->
    (let (fs, r2) := span is_digit r1 in let (e, r3) := opt_exponent r2 in
     Some (TFloat (ds ++ 46 :: fs ++ e), opt_suffix r3)) = Some (k, r) -> (length r < length ds + length rest)%nat) as HF.
  { intros r1 ->. destruct (span is_digit r1) as [fs r2] eqn:E. apply span_length in E.
    destruct (opt_exponent r2) as [e r3] eqn:E2. apply opt_exponent_le in E2. intros [= <- <-].
    pose proof (opt_suffix_le r3). rewrite E. cbn [length]. rewrite app_length. lia. }
  assert (match exponent rest with
          | Some (e, r2) => Some (TFloat (ds ++ e), opt_suffix r2)
          | None =>
              match ds with
              | 48 :: ds' =>
                  match ds' with
                  | [] =>
                      match rest with
                      | c :: r =>
                          if (c =? 120) || (c =? 88) then
                            match span is_hex r with
                            | ([], _) => int_tok [48] 10 rest
                            | (hs, r1) => int_tok hs 16 r1
                            end
                          else if has_suffix rest then Some (TFloat [48], r)
                          else int_tok [48] 10 rest
                      | [] => int_tok [48] 10 rest
                      end
                  | _ :: _ =>
                      match span is_oct ds' with
                      | ([], _) => int_tok [48] 10 (ds' ++ rest)
                      | (os, r1) => int_tok os 8 (r1 ++ rest)
                      end
                  end
              | _ =>
                  if has_suffix rest then Some (TFloat ds, opt_suffix rest)
                  else int_tok ds 10 rest
              end
          end = Some (k, r) -> (length r < length ds + length rest)%nat) as HN.
  { destruct (exponent rest) as [[e r2]|] eqn:E.
    { apply exponent_le in E. intros [= <- <-]. pose proof (opt_suffix_le r2). lia. }
    assert ((if has_suffix rest then Some (TFloat ds, opt_suffix rest) else int_tok ds 10 rest) = Some (k, r) ->
            (length r < length ds + length rest)%nat) as HD.
    { destruct (has_suffix rest); [intros [= <- <-]; pose proof (opt_suffix_le rest); lia|].
      intros H. apply int_tok_rest in H. subst. lia. }
    destruct ds as [|c ds']; [congruence|].
    destruct (N.eqb_spec c 48) as [->|Hc].
    2: { destruct c as [|c]; [exact HD|]. do 6 (destruct c as [c|c|]; try exact HD). congruence. }
    cbn [length] in *. destruct ds' as [|c2 ds2].
    - destruct rest as [|c r0]; [intros H; apply int_tok_rest in H; subst; cbn; lia|].
      destruct ((c =? 120) || (c =? 88)).
      + destruct (span is_hex r0) as [hs r1] eqn:E1. apply span_length in E1. destruct hs as [|h hs].
        * intros H. apply int_tok_rest in H. subst r. cbn [length]. lia.
        * intros H. apply int_tok_rest in H. subst r. rewrite E1. cbn [length]. rewrite app_length. cbn. lia.
      + destruct (has_suffix (c :: r0)); [intros [= <- <-]; cbn; lia|].
        intros H. apply int_tok_rest in H. subst. cbn. lia.
    - destruct (span is_oct (c2 :: ds2)) as [os r1] eqn:E1. apply span_length in E1.
      assert (length (c2 :: ds2) = length os + length r1)%nat as EL by (rewrite E1; apply app_length).
      destruct os as [|x os]; intros H; apply int_tok_rest in H; subst r; rewrite app_length; cbn [length] in *; lia. }
  destruct rest as [|c rest']; [exact HN|].
  destruct (N.eqb_spec c 46) as [->|Hc]; [intros H; eapply HF; [reflexivity|exact H]|].
  destruct c as [|c]; [exact HN|]. do 6 (destruct c as [c|c|]; try exact HN). congruence.
Qed.

Lemma next_token_total s : exists o, next_token s = Ok o /\
  (forall k r, o = Some (k, r) -> (length r < length s)%nat).
Proof.
  destruct s as [|c s]; [eexists; split; [reflexivity|discriminate]|]. unfold next_token.
  destruct (ident_start c) eqn:I.
  { destruct (span ident_char (c :: s)) as [a b] eqn:E. eexists; split; [reflexivity|]. intros k r [= <- <-].
    cbn [span] in E. unfold ident_char at 1 in E. rewrite I in E. cbn [orb] in E.
    destruct (span ident_char s) as [x y] eqn:E2. injection E as <- <-. apply span_length in E2. rewrite E2.
    cbn [length]. rewrite app_length. lia. }
  destruct (is_digit c) eqn:D.
  { destruct (span is_digit (c :: s)) as [ds b] eqn:E. eexists; split; [reflexivity|]. intros k r H.
    assert (ds <> []) as N0.
    { cbn [span] in E. rewrite D in E. destruct (span is_digit s). injection E as <- <-. discriminate. }
    apply span_length in E. rewrite E. exact (number_shorter _ _ _ _ N0 H). }
  destruct ((c =? 34) || (c =? 39)).
  { destruct (string_loop_total (S (length s)) c s) as [o Ho]; [lia|]. rewrite Ho. cbn [rbind].
    eexists; split; [reflexivity|]. intros k r H. destruct o as [[v b]|]; [|discriminate]. injection H as <- <-.
    apply string_loop_shorter in Ho. cbn [length]. lia. }
  destruct (_ && _).
  { destruct (span is_digit s) as [fs r1] eqn:E. apply span_length in E. destruct (opt_exponent r1) as [e r2] eqn:E2.
    apply opt_exponent_le in E2. eexists; split; [reflexivity|]. intros k r [= <- <-].
    pose proof (opt_suffix_le r2). rewrite E. cbn [length]. rewrite app_length. lia. }
  destruct (punct c); (eexists; split; [reflexivity|]); [intros k r [= <- <-]; cbn; lia|discriminate].
Qed.

Lemma skip_line_le s : (length (skip_line s) <= length s)%nat.
Proof. induction s as [|c s IH]; cbn [skip_line]; [lia|]. destruct (c =? 10); cbn [length]; lia. Qed.

Lemma lex_loop_total n s : (length s <= n)%nat -> exists ks, lex_loop n s = Ok ks.
Proof.
  revert s. induction n as [|n IH]; intros s L.
  - destruct s; [eexists; reflexivity|cbn in L; lia].
  - cbn [lex_loop]. destruct s as [|c s]; [eexists; reflexivity|]. cbn [length] in L.
    destruct (is_space c); [apply IH; lia|].
    destruct (c =? 35); [apply IH; pose proof (skip_line_le s); lia|].
    destruct (next_token_total (c :: s)) as [o [Ho Hl]]. rewrite Ho. cbn [rbind].
    destruct o as [[k r]|]; [|eexists; reflexivity]. specialize (Hl _ _ eq_refl). cbn [length] in Hl.
    destruct (IH r) as [ks ->]; [lia|]. eexists; reflexivity.
Qed.
(** lexing always ends *)
Lemma lex_total s : exists ks, lex s = Ok ks.
Proof. apply lex_loop_total. lia. Qed.

Lemma lex_loop_more n : forall s ks m, lex_loop n s = Ok ks -> (n <= m)%nat -> lex_loop m s = Ok ks.
Proof.
  induction n as [|n IH]; intros s ks m H L.
  - destruct s; [|discriminate]. destruct m; exact H.
  - destruct m as [|m]; [lia|]. cbn [lex_loop] in *. destruct s as [|c s]; [exact H|].
    destruct (is_space c); [apply (IH _ _ _ H); lia|]. destruct (c =? 35); [apply (IH _ _ _ H); lia|].
    destruct (next_token (c :: s)) as [[[k r]|]| | |]; cbn [rbind] in *; try exact H.
    destruct (lex_loop n r) as [ks'| | |] eqn:E; cbn [rbind] in H; try discriminate.
    rewrite (IH _ _ m E) by lia. exact H.
Qed.

(** one token *)
Lemma lex_token s k r ks :
  match s with c :: _ => is_space c = false /\ (c =? 35) = false | [] => False end ->
  next_token s = Ok (Some (k, r)) -> lex r = Ok ks -> lex s = Ok (k :: ks).
Proof.
  intros C H L. unfold lex in *. destruct s as [|c s]; [contradiction|]. destruct C as [C1 C2].
  cbn [length lex_loop]. rewrite C1, C2, H. cbn [rbind].
  destruct (next_token_total (c :: s)) as [o [Ho Hl]]. rewrite H in Ho. injection Ho as <-.
  specialize (Hl _ _ eq_refl). cbn [length] in Hl. rewrite (lex_loop_more _ _ _ (length s) L) by lia. reflexivity.
Qed.
Lemma lex_space c s : is_space c = true -> lex (c :: s) = lex s.
Proof. intros C. unfold lex. cbn [length lex_loop]. rewrite C. reflexivity. Qed.
Lemma lex_spaces n s : lex (repeat 32 n ++ s) = lex s.
Proof. induction n as [|n IH]; cbn [repeat app]; [reflexivity|]. rewrite lex_space by reflexivity. exact IH. Qed.
Lemma lex_newline n s : lex (newline n ++ s) = lex s.
Proof. unfold newline. cbn [app]. rewrite lex_space by reflexivity. apply lex_spaces. Qed.
Lemma lex_punct c k s ks : is_space c = false -> (c =? 35) = false -> punct c = Some k ->
  (c =? 46) = false -> ident_start c = false -> is_digit c = false -> (c =? 34) || (c =? 39) = false ->
  lex s = Ok ks -> lex (c :: s) = Ok (k :: ks).
Proof.
  intros A B C D E F G L. apply lex_token with (r := s); [split; assumption| |exact L].
  unfold next_token. rewrite E, F, G, D. cbn [andb]. rewrite C. reflexivity.
Qed.

(** ** Strings *)

Lemma byte_cases (P : N -> Prop) : Forall P (map N.of_nat (seq 0 256)) -> forall c, c < 256 -> P c.
Proof.
  intros H c Hc. rewrite Forall_forall in H. apply H. apply in_map_iff. exists (N.to_nat c). split; [lia|].
  apply in_seq. lia.
Qed.

Lemma fmt_char_reads c n rest : c < 256 ->
  string_loop (S n) 34 (fmt_char c ++ rest) =
  let! o := string_loop n 34 rest in
  Ok (match o with Some (v, r) => Some (c :: v, r) | None => None end).
Proof.
  intros Hc. revert c Hc.
  apply (byte_cases (fun c => string_loop (S n) 34 (fmt_char c ++ rest) =
    let! o := string_loop n 34 rest in
    Ok (match o with Some (v, r) => Some (c :: v, r) | None => None end))).
  cbv [seq map N.of_nat Pos.of_succ_nat Pos.succ].
  repeat (apply Forall_cons; [reflexivity|]). apply Forall_nil.
Qed.
Lemma fmt_chars_read s : forall n rest, bytes_ok s -> (length s < n)%nat ->
  string_loop n 34 (flat_map fmt_char s ++ 34 :: rest) = Ok (Some (s, rest)).
Proof.
  induction s as [|c s IH]; intros n rest B L; cbn [flat_map app].
  - destruct n; [cbn in L; lia|]. reflexivity.
  - destruct n as [|n]; [cbn in L; lia|]. cbn [length] in L. inversion B; subst.
    rewrite <- app_assoc, fmt_char_reads by assumption. rewrite IH by (assumption || lia). reflexivity.
Qed.
Lemma fmt_char_nonempty c : (1 <= length (fmt_char c))%nat.
Proof.
  unfold fmt_char. repeat match goal with |- context [match ?x with _ => _ end] => destruct x; cbn [length]; try lia end.
Qed.
Lemma fmt_string_token s rest : bytes_ok s -> next_token (fmt_string s ++ rest) = Ok (Some (TStr s, rest)).
Proof.
  intros B. unfold fmt_string. cbn [app]. rewrite <- app_assoc. cbn [app]. unfold next_token.
  change (ident_start 34) with false. change (is_digit 34) with false. cbn [N.eqb Pos.eqb orb].
  cbn [orb]. cbv iota. rewrite fmt_chars_read; [reflexivity|exact B|]. rewrite app_length. cbn [length].
  assert (length s <= length (flat_map fmt_char s))%nat; [|lia]. clear. induction s as [|c s IH]; cbn; [lia|].
  rewrite app_length. pose proof (fmt_char_nonempty c). lia.
Qed.
Lemma lex_string s rest ks : bytes_ok s -> lex rest = Ok ks -> lex (fmt_string s ++ rest) = Ok (TStr s :: ks).
Proof. intros B L. eapply lex_token; [|apply fmt_string_token; exact B|exact L]. split; reflexivity. Qed.

(** ** Integers *)

Lemma show_digits_digits n : forall x, Forall (fun c => is_digit c = true) (show_digits n x).
Proof.
  induction n as [|n IH]; intros x; cbn [show_digits]; [constructor|].
  destruct (N.ltb_spec x 10); [|apply Forall_app; split; [apply IH|]]; (constructor; [|constructor]);
    unfold is_digit; apply andb_true_intro; split; apply N.leb_le; lia.
Qed.
Lemma radix_app r a b : radix_val r (a ++ b) = fold_left (fun a c => a * r + hex_val c) b (radix_val r a).
Proof. unfold radix_val. apply fold_left_app. Qed.
Lemma hex_val_digit d : d < 10 -> hex_val (48 + d) = d.
Proof.
  intros H. unfold hex_val. assert (is_digit (48 + d) = true) as ->; [|lia].
  unfold is_digit. apply andb_true_intro; split; apply N.leb_le; lia.
Qed.
Lemma show_digits_value n : forall x, x < 2 ^ N.of_nat n -> radix_val 10 (show_digits n x) = x.
Proof.
  induction n as [|n IH]; intros x L.
  - cbn in L. assert (x = 0) as -> by lia. reflexivity.
  - cbn [show_digits]. rewrite Nat2N.inj_succ, N.pow_succ_r' in L. destruct (N.ltb_spec x 10).
    + unfold radix_val. cbn [fold_left]. rewrite hex_val_digit by lia. lia.
    + rewrite radix_app. cbn [fold_left]. rewrite IH, hex_val_digit; [|apply N.mod_lt; lia|]; lia.
Qed.
Lemma size_bound x : x < 2 ^ N.of_nat (S (N.size_nat x)).
Proof.
  destruct x as [|p]; [reflexivity|]. cbn [N.size_nat].
  assert (Npos p < 2 ^ N.of_nat (Pos.size_nat p)).
  { induction p; cbn [Pos.size_nat]; rewrite ?Nat2N.inj_succ, ?N.pow_succ_r'; lia. }
  rewrite Nat2N.inj_succ, N.pow_succ_r'. lia.
Qed.
Lemma show_N_value x : radix_val 10 (show_N x) = x.
Proof. apply show_digits_value, size_bound. Qed.
Lemma show_N_digits x : Forall (fun c => is_digit c = true) (show_N x).
Proof. apply show_digits_digits. Qed.
Lemma show_digits_first n : forall x, 0 < x -> x < 2 ^ N.of_nat n ->
  exists c r, show_digits n x = c :: r /\ 49 <= c <= 57.
Proof.
  induction n as [|n IH]; intros x P L; [cbn in L; lia|]. cbn [show_digits].
  rewrite Nat2N.inj_succ, N.pow_succ_r' in L. destruct (N.ltb_spec x 10).
  - exists (48 + x), []. split; [reflexivity|lia].
  - destruct (IH (x / 10)) as [c [r [-> B]]]; [lia|lia|]. exists c, (r ++ [48 + x mod 10]). split; [reflexivity|exact B].
Qed.
Lemma show_N_first x : 0 < x -> exists c r, show_N x = c :: r /\ 49 <= c <= 57.
Proof. intros H. apply show_digits_first; [exact H|apply size_bound]. Qed.

(** what the printer writes after a value *)
Definition stops (s : bytes) : Prop :=
  match s with [] => True | c :: _ => c = 44 \/ c = 10 \/ c = 93 \/ c = 125 end.
Lemma stops_cases s : stops s -> s = [] \/ (exists r, s = 44 :: r) \/ (exists r, s = 10 :: r) \/
  (exists r, s = 93 :: r) \/ (exists r, s = 125 :: r).
Proof.
  destruct s as [|c s]; [left; reflexivity|]. cbn. intros [-> | [-> | [-> | ->]]]; right; [left|right; left|right; right; left|right; right; right]; eexists; reflexivity.
Qed.

Lemma show_N_token x rest : stops rest -> next_token (show_N x ++ rest) = Ok (Some (TInt (show_N x) 10, rest)).
Proof.
  intros Hs.
  assert (span is_digit (show_N x ++ rest) = (show_N x, rest)) as Sp.
  { apply span_app; [apply show_N_digits|]. destruct rest as [|c r]; [exact I|]. cbn in Hs.
    destruct Hs as [-> | [-> | [-> | ->]]]; reflexivity. }
  assert (exists c r, show_N x = c :: r /\ (x = 0 /\ c = 48 /\ r = [] \/ 49 <= c <= 57)) as [c [r [E Hc]]].
  { destruct (N.eq_dec x 0) as [->|Hx]; [exists 48, []; split; [reflexivity|left; repeat split]|].
    destruct (show_N_first x) as [c [r [E B]]]; [lia|]. exists c, r. split; [exact E|right; exact B]. }
  rewrite E in *. cbn [app] in *. unfold next_token. rewrite Sp.
  assert (ident_start c = false /\ is_digit c = true) as [-> ->].
  { destruct Hc as [[_ [-> _]]|B]; [split; reflexivity|].
    assert (c = 49 \/ c = 50 \/ c = 51 \/ c = 52 \/ c = 53 \/ c = 54 \/ c = 55 \/ c = 56 \/ c = 57) as D by lia.
    repeat (destruct D as [-> | D]; [split; reflexivity|]). subst; split; reflexivity. }
  f_equal. destruct Hc as [[_ [-> ->]]|B].
  - apply stops_cases in Hs. destruct Hs as [->|[[r ->]|[[r ->]|[[r ->]|[r ->]]]]]; reflexivity.
  - assert (c = 49 \/ c = 50 \/ c = 51 \/ c = 52 \/ c = 53 \/ c = 54 \/ c = 55 \/ c = 56 \/ c = 57) as D by lia.
    apply stops_cases in Hs. destruct Hs as [->|[[r' ->]|[[r' ->]|[[r' ->]|[r' ->]]]]];
      repeat (destruct D as [-> | D]; [reflexivity|]); subst; reflexivity.
Qed.
Lemma digit_not_space c : is_digit c = true -> is_space c = false /\ (c =? 35) = false.
Proof.
  unfold is_digit. intros H. apply andb_prop in H. destruct H as [A B]. apply N.leb_le in A, B. unfold is_space, in_range.
  split; [|apply N.eqb_neq; lia].
  apply orb_false_iff; split; [apply andb_false_iff; right; apply N.leb_gt; lia|apply N.eqb_neq; lia].
Qed.
Lemma lex_nat x rest ks : stops rest -> lex rest = Ok ks -> lex (show_N x ++ rest) = Ok (TInt (show_N x) 10 :: ks).
Proof.
  intros Hs L. eapply lex_token; [|apply show_N_token; exact Hs|exact L].
  pose proof (show_N_digits x) as D. destruct (show_N x) as [|c r] eqn:E.
  - destruct (N.eq_dec x 0) as [->|Hx]; [discriminate|]. destruct (show_N_first x) as [c [r [E2 _]]]; [lia|congruence].
  - cbn [app]. inversion D; subst. apply digit_not_space. assumption.
Qed.
(** a minus sign *)
Lemma lex_minus s ks : lex s = Ok ks -> lex (45 :: s) = Ok (TMinus :: ks).
Proof. intros L. apply lex_punct; try reflexivity. exact L. Qed.

(** ** Identifiers *)
Definition ident_okb (s : str) : bool :=
  match s with c :: r => ident_start c && forallb ident_char r | [] => false end.

Lemma ident_start_plain c : ident_start c = true -> is_space c = false /\ (c =? 35) = false.
Proof.
  unfold ident_start, is_alpha, in_range. intros H. unfold is_space, in_range.
  assert (65 <= c) as L.
  { apply orb_prop in H. destruct H as [H|H]; [|apply N.eqb_eq in H; lia].
    apply orb_prop in H. destruct H as [H|H]; apply andb_prop in H; destruct H as [H _]; apply N.leb_le in H; lia. }
  split; [|apply N.eqb_neq; lia].
  apply orb_false_iff; split; [apply andb_false_iff; right; apply N.leb_gt; lia|apply N.eqb_neq; lia].
Qed.
Lemma lex_ident s rest ks : ident_okb s = true ->
  match rest with c :: _ => ident_char c = false | [] => True end ->
  lex rest = Ok ks -> lex (s ++ rest) = Ok (TIdent s :: ks).
Proof.
  intros H R L. destruct s as [|c s]; [discriminate|]. cbn [ident_okb] in H. apply andb_prop in H. destruct H as [H1 H2].
  eapply lex_token with (r := rest); [|  |exact L].
  - cbn [app]. apply ident_start_plain, H1.
  - cbn [app]. unfold next_token. rewrite H1.
    change (c :: s ++ rest) with ((c :: s) ++ rest). rewrite span_app; [reflexivity| |exact R].
    constructor; [unfold ident_char; rewrite H1; reflexivity|]. apply Forall_forall. rewrite forallb_forall in H2. exact H2.
Qed.
