(** The tokens of a text made of bytes hold bytes, and identifiers hold ASCII
    characters. *)
From Coq Require Import String.
From Verif Require Import Base BaseProofs Wire Float TextLex TextFormat TextLexProofs.
Open Scope N_scope.

Definition tok_ok (k : tok) : Prop :=
  match k with
  | TIdent s => Forall (fun c => c < 128) s
  | TStr s => bytes_ok s
  | _ => True
  end.

Lemma hex_val_bound c : is_hex c = true -> hex_val c < 16.
Proof.
  unfold is_hex, hex_val, is_digit, in_range. intros H.
  destruct ((48 <=? c) && (c <=? 57)) eqn:E1; [lia|]. destruct ((65 <=? c) && (c <=? 70)) eqn:E2; [lia|].
  cbn [orb] in H. lia.
Qed.
Lemma span_n_spec n p s a b : span_n n p s = (a, b) -> (length a <= n)%nat /\ Forall (fun c => p c = true) a /\ s = a ++ b.
Proof.
  revert s a b. induction n as [|n IH]; intros s a b; cbn [span_n].
  - intros [= <- <-]. cbn. auto.
  - destruct s as [|c r]; [intros [= <- <-]; cbn; repeat split; auto; lia|].
    destruct (p c) eqn:E; [|intros [= <- <-]; cbn; repeat split; auto; lia].
    destruct (span_n n p r) as [a' b'] eqn:Es. intros [= <- <-]. destruct (IH _ _ _ Es) as (H1 & H2 & H3).
    cbn. split; [lia|]. split; [constructor; assumption|]. now rewrite H3.
Qed.
Lemma utf8_encode_ok c : c < 1114112 -> bytes_ok (utf8_encode c).
Proof.
  intros H. unfold utf8_encode.
  assert (c mod 64 < 64) by (apply N.mod_lt; lia).
  assert ((c / 64) mod 64 < 64) by (apply N.mod_lt; lia).
  assert ((c / 4096) mod 64 < 64) by (apply N.mod_lt; lia).
  destruct (N.ltb_spec c 128); [repeat constructor; lia|].
  destruct (N.ltb_spec c 2048).
  { assert (c / 64 < 32) by (apply N.div_lt_upper_bound; lia). repeat constructor; lia. }
  destruct (N.ltb_spec c 65536).
  { assert (c / 4096 < 16) by (apply N.div_lt_upper_bound; lia). repeat constructor; lia. }
  assert (c / 262144 < 5) by (apply N.div_lt_upper_bound; lia). repeat constructor; lia.
Qed.
Lemma escape_ok s bs r : bytes_ok s -> escape s = Some (bs, r) -> bytes_ok bs /\ bytes_ok r.
Proof.
  intros Hs. destruct s as [|c s']; [discriminate|]. inversion Hs as [|? ? Hc Hs']; subst. cbn [escape].
  destruct ((c =? 120) || (c =? 88)).
  - destruct (span_n 2 is_hex s') as [hs r'] eqn:E. destruct (span_n_spec _ _ _ _ _ E) as (L & F & ->).
    apply bytes_ok_app in Hs'. destruct hs as [|h hs]; [discriminate|]. intros [= <- <-]. split; [|tauto].
    constructor; [|constructor]. destruct hs as [|h2 hs].
    + inversion F as [|? ? F1 _]; subst. apply hex_val_bound in F1. unfold radix_val. cbn. lia.
    + destruct hs; [|cbn in L; lia]. inversion F as [|? ? F1 F']; subst. inversion F' as [|? ? F2 _]; subst.
      apply hex_val_bound in F1. apply hex_val_bound in F2. unfold radix_val. cbn [fold_left]. lia.
  - destruct (is_oct c).
    + destruct (span_n 3 is_oct (c :: s')) as [os r'] eqn:E. destruct (span_n_spec _ _ _ _ _ E) as (_ & _ & E').
      destruct (N.ltb_spec (radix_val 8 os) 256); [|discriminate]. intros [= <- <-]. split; [repeat constructor; assumption|].
      rewrite E' in Hs. apply bytes_ok_app in Hs. tauto.
    + destruct ((c =? 117) || (c =? 85)).
      * destruct (span_n _ is_hex s') as [hs r'] eqn:E. destruct (span_n_spec _ _ _ _ _ E) as (_ & _ & ->).
        apply bytes_ok_app in Hs'.
        destruct ((length hs =? _)%nat && is_char (radix_val 16 hs)) eqn:Ec; [|discriminate].
        intros [= <- <-]. split; [|tauto]. apply utf8_encode_ok. apply andb_true_iff in Ec. destruct Ec as [_ Ec].
        unfold is_char, in_range in Ec. lia.
      * destruct (char_escape c) as [b|] eqn:E; [|discriminate]. intros [= <- <-]. split; [|exact Hs'].
        constructor; [|constructor]. clear -E. unfold char_escape in E.
        destruct c as [|c]; [discriminate|]. do 7 (try (destruct c as [c|c|]; try discriminate E)); injection E as <-; lia.
Qed.
Lemma string_loop_ok n q : forall s v r, bytes_ok s -> string_loop n q s = Ok (Some (v, r)) -> bytes_ok v /\ bytes_ok r.
Proof.
  induction n as [|n IH]; intros s v r Hs; cbn [string_loop]; [discriminate|].
  destruct s as [|c s]; [discriminate|]. inversion Hs as [|? ? Hc Hs']; subst.
  destruct (c =? q); [intros [= <- <-]; split; [constructor|exact Hs']|].
  destruct (c =? 92).
  - destruct (escape s) as [[bs r']|] eqn:E; [|discriminate]. destruct (escape_ok _ _ _ Hs' E) as [H1 H2].
    destruct (string_loop n q r') as [[[v' r'']|]| | |] eqn:El; cbn [rbind]; try discriminate.
    intros [= <- <-]. destruct (IH _ _ _ H2 El) as [H3 H4]. split; [apply bytes_ok_app; auto|exact H4].
  - destruct ((c =? 0) || (c =? 10)); [discriminate|].
    destruct (string_loop n q s) as [[[v' r'']|]| | |] eqn:El; cbn [rbind]; try discriminate.
    intros [= <- <-]. destruct (IH _ _ _ Hs' El) as [H3 H4]. split; [constructor; auto|exact H4].
Qed.
Lemma opt_suffix_sfx s : exists p, s = p ++ opt_suffix s.
Proof.
  destruct s as [|c r]; [exists []; reflexivity|]. unfold opt_suffix. destruct (_ || _); [exists [c]|exists []]; reflexivity.
Qed.
Lemma exponent_sfx s e r : exponent s = Some (e, r) -> exists p, s = p ++ r.
Proof.
  unfold exponent. destruct s as [|c s]; [discriminate|]. destruct (_ || _); [|discriminate].
  assert (forall sg r1, (exists q, s = q ++ r1) -> match span is_digit r1 with ([], _) => None | (ds, r2) => Some (c :: sg ++ ds, r2) end = Some (e, r) -> exists p, c :: s = p ++ r) as A.
  { intros sg r1 [q ->]. destruct (span is_digit r1) as [a b] eqn:E. apply span_length in E. subst r1.
    destruct a as [|x a]; [discriminate|]. intros [= _ <-]. exists (c :: q ++ x :: a). cbn. now rewrite <- app_assoc. }
  destruct s as [|d s']; [apply (A []); exists []; reflexivity|].
  destruct d as [|d]; [apply (A []); exists []; reflexivity|].
  do 6 (destruct d as [d|d|]; try (apply (A []); exists []; reflexivity)).
  - intros H. apply (A [43] s'); [exists [43]; reflexivity|exact H].
  - intros H. apply (A [45] s'); [exists [45]; reflexivity|exact H].
Qed.
Lemma opt_exponent_sfx s e r : opt_exponent s = (e, r) -> exists p, s = p ++ r.
Proof.
  unfold opt_exponent. destruct (exponent s) as [[e' r']|] eqn:E; intros [= <- <-]; [eapply exponent_sfx; exact E|exists []; reflexivity].
Qed.
Definition plain_tok (k : tok) : Prop := match k with TIdent _ | TStr _ => False | _ => True end.
Lemma plain_tok_ok k : plain_tok k -> tok_ok k.
Proof. destruct k; cbn; tauto. Qed.
Lemma sfx_trans (a b c : bytes) : (exists p, a = p ++ b) -> (exists p, b = p ++ c) -> exists p, a = p ++ c.
Proof. intros [p ->] [q ->]. exists (p ++ q). apply app_assoc. Qed.
Lemma sfx_refl (a : bytes) : exists p, a = p ++ a.
Proof. exists []. reflexivity. Qed.
Lemma int_tok_plain ds radix rest k r : int_tok ds radix rest = Some (k, r) -> plain_tok k /\ r = rest.
Proof. unfold int_tok. destruct (touches rest); [discriminate|]. intros [= <- <-]. split; [exact I|reflexivity]. Qed.

Lemma number_plain ds rest k r : number ds rest = Some (k, r) -> plain_tok k /\ exists p, ds ++ rest = p ++ r.
Proof.
  intros H.
  assert (A : forall x, (exists p, rest = p ++ x) -> exists p, ds ++ rest = p ++ x).
  { intros x [p ->]. exists (ds ++ p). apply app_assoc. }
  unfold number in H.
  assert (G : (let (fs, r1) := span is_digit (tl rest) in let (e, r2) := opt_exponent r1 in
      Some (TFloat (ds ++ 46 :: fs ++ e), opt_suffix r2)) = Some (k, r) -> hd_error rest = Some 46 -> plain_tok k /\ exists p, ds ++ rest = p ++ r).
  { destruct rest as [|c rest]; [discriminate|]. cbn [tl hd_error]. intros G [= ->].
    destruct (span is_digit rest) as [fs r1] eqn:E1. destruct (opt_exponent r1) as [e r2] eqn:E2.
    injection G as <- <-. split; [exact I|]. apply A. apply span_length in E1. subst rest. apply opt_exponent_sfx in E2.
    eapply sfx_trans; [exists (46 :: fs); reflexivity|]. eapply sfx_trans; [exact E2|apply opt_suffix_sfx]. }
  assert (B : match exponent rest with
      | Some (e, r2) => Some (TFloat (ds ++ e), opt_suffix r2)
      | None =>
          match ds with
          | 48 :: ds' =>
              match ds' with
              | [] =>
                  match rest with
                  | c :: r =>
                      if (c =? 120) || (c =? 88) then
                        match span is_hex r with
                        | ([], _) => int_tok [48] 10 rest
                        | (hs, r1) => int_tok hs 16 r1
                        end
                      else if has_suffix rest then Some (TFloat [48], r)
                      else int_tok [48] 10 rest
                  | [] => int_tok [48] 10 rest
                  end
              | _ :: _ =>
                  match span is_oct ds' with
                  | ([], _) => int_tok [48] 10 (ds' ++ rest)
                  | (os, r1) => int_tok os 8 (r1 ++ rest)
                  end
              end
          | _ =>
              if has_suffix rest then Some (TFloat ds, opt_suffix rest)
              else int_tok ds 10 rest
          end
      end = Some (k, r) -> plain_tok k /\ exists p, ds ++ rest = p ++ r).
  { clear H. intros H. destruct (exponent rest) as [[e r2]|] eqn:Ee.
    { injection H as <- <-. split; [exact I|]. apply A. eapply sfx_trans; [eapply exponent_sfx; exact Ee|apply opt_suffix_sfx]. }
    assert (D : (if has_suffix rest then Some (TFloat ds, opt_suffix rest) else int_tok ds 10 rest) = Some (k, r) ->
      plain_tok k /\ exists p, ds ++ rest = p ++ r).
    { destruct (has_suffix rest).
      - intros [= <- <-]. split; [exact I|]. apply A, opt_suffix_sfx.
      - intros I0. apply int_tok_plain in I0. destruct I0 as [I0 ->]. split; [exact I0|]. apply A, sfx_refl. }
    destruct ds as [|d ds']; [exact (D H)|].
    destruct (N.eq_dec d 48) as [->|Hd].
    2: { destruct d as [|d]; [exact (D H)|]. do 6 (destruct d as [d|d|]; try exact (D H)). congruence. }
    destruct ds' as [|d' ds'].
    - destruct rest as [|c rest'].
      + apply int_tok_plain in H. destruct H as [H ->]. split; [exact H|]. exists [48]. reflexivity.
      + destruct ((c =? 120) || (c =? 88)).
        * destruct (span is_hex rest') as [hs r1] eqn:E. apply span_length in E. subst rest'.
          destruct hs as [|h hs]; apply int_tok_plain in H; destruct H as [H ->]; (split; [exact H|]).
          -- exists [48]. reflexivity.
          -- exists (48 :: c :: h :: hs). reflexivity.
        * destruct (has_suffix (c :: rest')).
          -- injection H as <- <-. split; [exact I|]. exists [48; c]. reflexivity.
          -- apply int_tok_plain in H. destruct H as [H ->]. split; [exact H|]. exists [48]. reflexivity.
    - destruct (span is_oct (d' :: ds')) as [os r1] eqn:E. apply span_length in E.
      destruct os as [|o os]; apply int_tok_plain in H; destruct H as [H ->]; (split; [exact H|]).
      + exists [48]. reflexivity.
      + rewrite E. exists (48 :: o :: os). cbn. rewrite <- !app_assoc. reflexivity. }
  destruct rest as [|c rest']; [exact (B H)|].
  destruct (N.eq_dec c 46) as [->|Hc]; [exact (G H eq_refl)|].
  destruct c as [|c]; [exact (B H)|]. do 6 (destruct c as [c|c|]; try exact (B H)). congruence.
Qed.

Lemma next_token_ok s k r : bytes_ok s -> next_token s = Ok (Some (k, r)) -> tok_ok k /\ bytes_ok r.
Proof.
  intros Hs. destruct s as [|c s]; [discriminate|]. inversion Hs as [|? ? Hc Hs']; subst. unfold next_token.
  assert (Sfx : forall x y : bytes, bytes_ok x -> (exists p, x = p ++ y) -> bytes_ok y).
  { intros x y Hx [p ->]. apply bytes_ok_app in Hx. tauto. }
  destruct (ident_start c) eqn:E1.
  - destruct (span ident_char (c :: s)) as [a b] eqn:E. intros [= <- <-]. split.
    + apply span_all in E. eapply Forall_impl; [|exact E]. cbv beta. intros x.
      unfold ident_char, ident_start, is_alpha, is_digit, in_range. lia.
    + apply span_length in E. rewrite E in Hs. apply bytes_ok_app in Hs. tauto.
  - destruct (is_digit c).
    + destruct (span is_digit (c :: s)) as [a b] eqn:E. intros [= H]. apply number_plain in H.
      apply span_length in E. rewrite <- E in H. destruct H as [H1 H2]. split; [now apply plain_tok_ok|]. eapply Sfx; [exact Hs|exact H2].
    + destruct ((c =? 34) || (c =? 39)).
      * destruct (string_loop (S (length s)) c s) as [[[v b]|]| | |] eqn:E; cbn [rbind]; try discriminate.
        intros [= <- <-]. exact (string_loop_ok _ _ _ _ _ Hs' E).
      * destruct ((c =? 46) && _).
        -- destruct (span is_digit s) as [fs r1] eqn:Ea. destruct (opt_exponent r1) as [e r2] eqn:Eb. intros [= <- <-].
           split; [exact I|]. apply span_length in Ea. apply opt_exponent_sfx in Eb. eapply Sfx; [exact Hs'|].
           eapply sfx_trans; [exists fs; exact Ea|]. eapply sfx_trans; [exact Eb|apply opt_suffix_sfx].
        -- destruct (punct c) as [k'|] eqn:Ep; [|discriminate]. intros [= <- <-]. split; [|exact Hs'].
           unfold punct in Ep. destruct c as [|c]; [discriminate|].
           do 7 (try (destruct c as [c|c|]; try discriminate Ep)); injection Ep as <-; exact I.
Qed.
Lemma lex_loop_ok n : forall s ks, bytes_ok s -> lex_loop n s = Ok ks -> Forall tok_ok ks.
Proof.
  induction n as [|n IH]; intros s ks Hs; cbn [lex_loop].
  { destruct s; [intros [= <-]; constructor|discriminate]. }
  destruct s as [|c r]; [intros [= <-]; constructor|]. inversion Hs as [|? ? Hc Hs']; subst.
  destruct (is_space c); [now apply IH|].
  destruct (c =? 35).
  { apply IH. clear -Hs'. induction r as [|d r IH]; cbn [skip_line]; [constructor|]. inversion Hs'; subst.
    destruct (d =? 10); auto. }
  destruct (next_token (c :: r)) as [[[k rest]|]| | |] eqn:E; cbn [rbind]; try discriminate.
  - destruct (next_token_ok _ _ _ Hs E) as [H1 H2].
    destruct (lex_loop n rest) as [ks'| | |] eqn:El; cbn [rbind]; try discriminate. intros [= <-].
    constructor; [exact H1|]. eapply IH; [exact H2|exact El].
  - intros [= <-]. constructor; [exact I|constructor].
Qed.
Lemma lex_ok s ks : bytes_ok s -> lex s = Ok ks -> Forall tok_ok ks.
Proof. apply lex_loop_ok. Qed.
