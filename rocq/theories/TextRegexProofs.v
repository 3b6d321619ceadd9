(** The lexer finds the longest matches of its patterns. *)
From Coq Require Import String ZifyBool.
From Verif Require Import Base BaseProofs Wire Float TextLex TextLexProofs TextTokens TextRegex.
Open Scope list_scope.
Open Scope N_scope.

(** ** Which pattern *)

Ltac s2bs := repeat match goal with
  | |- context [s2b ?s] => let x := eval vm_compute in (s2b s) in change (s2b s) with x in *
  | H : context [s2b ?s] |- _ => let x := eval vm_compute in (s2b s) in change (s2b s) with x in *
  end.
Ltac unre := unfold any_of, between, letter_, digit, nonzero, octal, hexa, blank, plain, starts, backslash in *; s2bs; cbn [existsb] in *;
  unfold ident_char, ident_start, is_alpha, is_hex, is_oct, is_space, is_digit, in_range, letter_, digit, between in *.
Ltac splits := repeat match goal with
    | H : exists _, _ |- _ => destruct H
    | H : _ /\ _ |- _ => destruct H
    end; subst.
Ltac bools := repeat match goal with
  | |- context [if ?b then _ else _] => let E := fresh in destruct b eqn:E; try (exfalso; unre; lia)
  end.

Definition has (p : N -> bool) (l : bytes) : bool := existsb p l.
(** the number of the pattern a match belongs to *)
Definition which (l : bytes) : nat :=
  match l with
  | [] => 99%nat
  | c :: r =>
      if blank c then 0%nat
      else if c =? 35 then 1%nat
      else if letter_ c then 2%nat
      else if digit c then
        if has (any_of ".") l then 9%nat
        else if match r with x :: _ => any_of "xX" x | [] => false end then 6%nat
        else if has (any_of "eE") l then 10%nat
        else if has (any_of "fF") l then (if c =? 48 then 7%nat else 8%nat)
        else if c =? 48 then match r with [] => 3%nat | _ => 5%nat end
        else 4%nat
      else if (c =? 34) || (c =? 39) then 12%nat
      else if c =? 46 then match r with [] => 13%nat | _ => 11%nat end
      else if c =? 45 then 14%nat
      else if c =? 123 then 15%nat
      else if c =? 125 then 16%nat
      else if c =? 91 then 17%nat
      else if c =? 93 then 18%nat
      else if c =? 60 then 19%nat
      else if c =? 62 then 20%nat
      else if c =? 44 then 21%nat
      else if c =? 58 then 22%nat
      else if c =? 59 then 23%nat
      else 24%nat
  end.

Lemma has_app p a b : has p (a ++ b) = has p a || has p b.
Proof. apply existsb_app. Qed.
Lemma has_none p q l : Forall (fun c => p c = true) l -> (forall c, p c = true -> q c = false) -> has q l = false.
Proof. intros H K. unfold has. induction H; cbn [existsb]; [reflexivity|]. rewrite K, IHForall; auto. Qed.

Definition all (p : N -> bool) (l : bytes) : Prop := Forall (fun c => p c = true) l.
(** the digits, '.', 'x', exponents and suffixes of a number *)
Ltac nohas := first [reflexivity | eapply has_none; [eassumption|]; intros ? ?; unre; lia | cbn [has existsb]; unre; lia].

Lemma which_digit c r : digit c = true -> which (c :: r) =
  if has (any_of ".") (c :: r) then 9%nat
        else if match r with x :: _ => any_of "xX" x | [] => false end then 6%nat
        else if has (any_of "eE") (c :: r) then 10%nat
        else if has (any_of "fF") (c :: r) then (if c =? 48 then 7%nat else 8%nat)
        else if c =? 48 then match r with [] => 3%nat | _ => 5%nat end
        else 4%nat.
Proof. intros H. unfold which. rewrite H. replace (blank c) with false by (unre; lia). replace (c =? 35) with false by (unre; lia).
  replace (letter_ c) with false by (unre; lia). reflexivity. Qed.
Lemma second_digit p (l : bytes) : all p l -> (forall c, p c = true -> any_of "xX" c = false) ->
  match l with x :: _ => any_of "xX" x | [] => false end = false.
Proof. intros H K. destruct H; [reflexivity|]. auto. Qed.
Lemma exp_chars e : matches (Opt exp_re) e -> has (any_of ".") e = false /\ (e <> [] -> has (any_of "eE") e = true).
Proof.
  intros [->|H]; [split; [reflexivity|congruence]|]. 
  destruct H as (? & ? & -> & (x & -> & Hx) & sg & ds & -> & Hs & _ & Hd). split.
  - change ([x] ++ sg ++ ds) with ([x] ++ sg ++ ds). rewrite !has_app, (has_none digit _ ds) by (auto; intros; unre; lia).
    destruct Hs as [->|(d & -> & Hd')]; cbn [has existsb]; unre; lia.
  - intros _. cbn [app has existsb]. rewrite Hx. reflexivity.
Qed.
Lemma sfx_chars x : matches f_re x -> has (any_of ".") x = false /\ has (any_of "eE") x = false.
Proof. intros [->|(c & -> & Hc)]; [split; reflexivity|]. cbn [has existsb]. unre. split; lia. Qed.

Ltac indices i H := destruct i as [|i]; [first [discriminate H | injection H as <- <-]|first [discriminate H | indices i H]].
Lemma pattern_which i r a l : nth_error patterns i = Some (r, a) -> matches r l -> which l = i.
Proof.
  intros H. unfold patterns in H.
  indices i H; clear; cbn [matches]; intros H.
  - destruct H as [H1 H2]. destruct H2 as [|c l Hc Hl]; [congruence|]. unfold which. bools. reflexivity.
  - splits. cbn [app]. unfold which. bools. reflexivity.
  - splits. cbn [app]. unfold which. bools. reflexivity.
  - splits. rewrite which_digit by (unre; lia). assert (x = 48) as -> by (unre; lia). reflexivity.
  - splits. cbn [app]. rewrite which_digit by (unre; lia).
    assert (all digit (x1 :: x0)) as A by (constructor; [unre; lia|assumption]).
    rewrite !(has_none digit _ _ A) by (intros; unre; lia). rewrite (second_digit digit) by (auto; intros; unre; lia).
    replace (x1 =? 48) with false by (unre; lia). reflexivity.
  - splits. cbn [app]. assert (x1 = 48) as -> by (unre; lia). rewrite which_digit by reflexivity.
    assert (all digit (48 :: x0)) as A by (constructor; [reflexivity|]; eapply Forall_impl; [|eassumption]; intros; unre; lia).
    rewrite !(has_none digit _ _ A) by (intros; unre; lia). rewrite (second_digit octal) by (auto; intros; unre; lia).
    destruct x0; [congruence|reflexivity].
  - destruct H as (? & ? & -> & (z & -> & Hz) & ? & hs & -> & (x & -> & Hx) & _ & Hh). cbn [app]. rewrite which_digit by (unre; lia).
    replace (has (any_of ".") (z :: x :: hs)) with false; [rewrite Hx; reflexivity|].
    change (z :: x :: hs) with ([z; x] ++ hs). rewrite has_app, (has_none hexa _ hs) by (auto; intros; unre; lia).
    cbn [has existsb]. unre; lia.
  - destruct H as (? & ? & -> & (x1 & -> & Hx1) & (x & -> & Hx)). cbn [app]. rewrite which_digit by (unre; lia). assert (x1 = 48) as -> by (unre; lia).
    replace (has (any_of ".") [48; x]) with false by (cbn [has existsb]; unre; lia).
    replace (any_of "xX" x) with false by (unre; lia).
    replace (has (any_of "eE") [48; x]) with false by (cbn [has existsb]; unre; lia).
    replace (has (any_of "fF") [48; x]) with true by (cbn [has existsb]; unre; lia). reflexivity.
  - destruct H as (? & ? & -> & (x3 & -> & Hx3) & x0 & ? & -> & H2 & (x1 & -> & Hx1)). cbn [app]. rewrite which_digit by (unre; lia).
    assert (all digit (x3 :: x0)) as A by (constructor; [unre; lia|assumption]).
    change (x3 :: x0 ++ [x1]) with ((x3 :: x0) ++ [x1]). rewrite !has_app, !(has_none digit _ _ A) by (intros; unre; lia).
    replace (has (any_of ".") [x1]) with false by (cbn [has existsb]; unre; lia).
    replace (has (any_of "eE") [x1]) with false by (cbn [has existsb]; unre; lia).
    replace (has (any_of "fF") [x1]) with true by (cbn [has existsb]; unre; lia). cbn [orb].
    replace (match x0 ++ [x1] with x :: _ => any_of "xX" x | [] => false end) with false.
    + replace (x3 =? 48) with false by (unre; lia). reflexivity.
    + destruct x0 as [|d x0]; cbn [app]; [unre; lia|]. inversion H2; subst. unre; lia.
  - destruct H as (x & ? & -> & [N D] & ? & ? & -> & (x1 & -> & Hx1) & _).
    destruct x as [|c x]; [congruence|]. cbn [app]. inversion D; subst. rewrite which_digit by assumption.
    replace (has (any_of ".") _) with true; [reflexivity|]. symmetry. apply existsb_exists. exists x1. split; [|assumption].
    right. apply in_or_app. right. left. reflexivity.
  - destruct H as (ds & tl & -> & [N D] & e & f & -> & He & Hf). destruct ds as [|c ds]; [congruence|]. cbn [app]. inversion D; subst. rewrite which_digit by assumption.
    assert (M : matches (Opt exp_re) e) by (right; exact He). destruct (exp_chars e M) as [E1 E2].
    destruct (sfx_chars f Hf) as [F1 F2].
    change (c :: ds ++ e ++ f) with ((c :: ds) ++ e ++ f). rewrite !has_app, E1, F1, !(has_none digit _ _ D) by (intros; unre; lia).
    rewrite E2, F2 by (destruct He as (a & b & -> & (x & -> & _) & _); discriminate). cbn [orb].
    replace (match ds ++ e ++ f with x :: _ => any_of "xX" x | [] => false end) with false; [reflexivity|].
    destruct ds as [|d ds]; cbn [app]; [|inversion H2; subst; unre; lia].
    destruct He as (a & b & -> & (x & -> & Hx) & _). cbn [app]. unre; lia.
  - destruct H as (d & tl & -> & (x & -> & Hx) & ds & tl2 & -> & [N D] & _). cbn [app]. destruct ds as [|e ds]; [congruence|].
    cbn [app]. unfold which. bools. reflexivity.
  - splits. unfold which. bools; reflexivity.
  - splits; unfold which; bools; reflexivity.
  - splits; unfold which; bools; reflexivity.
  - splits; unfold which; bools; reflexivity.
  - splits; unfold which; bools; reflexivity.
  - splits; unfold which; bools; reflexivity.
  - splits; unfold which; bools; reflexivity.
  - splits; unfold which; bools; reflexivity.
  - splits; unfold which; bools; reflexivity.
  - splits; unfold which; bools; reflexivity.
  - splits; unfold which; bools; reflexivity.
  - splits; unfold which; bools; reflexivity.
  - splits; unfold which; bools; reflexivity.
Qed.

Lemma no_ties r1 a1 r2 a2 l : In (r1, a1) patterns -> In (r2, a2) patterns -> matches r1 l -> matches r2 l -> a1 = a2.
Proof.
  intros H1 H2 M1 M2. apply In_nth_error in H1. apply In_nth_error in H2. destruct H1 as [i H1], H2 as [j H2].
  assert (i = j) as -> by (rewrite <- (pattern_which _ _ _ _ H1 M1); apply (pattern_which _ _ _ _ H2 M2)). congruence.
Qed.
Lemma longest_fun l1 rest1 a1 l2 rest2 a2 : longest l1 rest1 a1 -> longest l2 rest2 a2 -> l1 ++ rest1 = l2 ++ rest2 ->
  l1 = l2 /\ rest1 = rest2 /\ a1 = a2.
Proof.
  intros [(r1 & I1 & M1) L1] [(r2 & I2 & M2) L2] E.
  pose proof (L1 _ _ _ _ I2 M2 E) as B1. pose proof (L2 _ _ _ _ I1 M1 (eq_sym E)) as B2.
  assert (l1 = l2) as ->.
  { pose proof (f_equal (firstn (length l1)) E) as F. rewrite firstn_app, Nat.sub_diag, firstn_all in F. cbn [firstn] in F. rewrite app_nil_r in F.
    replace (length l1) with (length l2) in F by lia. rewrite firstn_app, Nat.sub_diag, firstn_all in F. cbn [firstn] in F. rewrite app_nil_r in F. exact F. }
  apply app_inv_head in E. split; [reflexivity|]. split; [exact E|]. eapply no_ties; eassumption.
Qed.

(** ** String literals *)

Lemma span_n_max n p : forall s a b, span_n n p s = (a, b) -> length a = n \/ (length a < n)%nat /\ ~ starts p b.
Proof.
  induction n as [|n IH]; intros s a b; cbn [span_n].
  - intros [= <- <-]. left. reflexivity.
  - destruct s as [|c r]; [intros [= <- <-]; right; cbn; split; [lia|auto]|]. destruct (p c) eqn:E.
    + destruct (span_n n p r) as [a' b'] eqn:E2. intros [= <- <-]. cbn [length]. destruct (IH _ _ _ E2) as [H|[H1 H2]]; [left; lia|right; split; [lia|exact H2]].
    + intros [= <- <-]. right. cbn [length starts]. split; [lia|congruence].
Qed.
Lemma span_n_app p a b : forall n, all p a -> length a = n \/ (length a < n)%nat /\ ~ starts p b -> span_n n p (a ++ b) = (a, b).
Proof.
  induction a as [|c a IH]; intros n Ha Hn; cbn [app length] in *.
  - destruct n as [|n]; [reflexivity|]. cbn [span_n]. destruct Hn as [Hn|[_ Hn]]; [lia|]. destruct b as [|d b]; [reflexivity|].
    cbn [starts] in Hn. destruct (p d); [exfalso; auto|reflexivity].
  - inversion Ha; subst. destruct n as [|n]; [lia|]. cbn [span_n]. rewrite H1, IH; auto. destruct Hn as [Hn|[Hn Hb]]; [left; lia|right; split; [lia|exact Hb]].
Qed.
Lemma span_max p : forall s a b, span p s = (a, b) -> ~ starts p b.
Proof.
  induction s as [|c r IH]; intros a b; cbn [span]; [intros [= <- <-] []|]. destruct (p c) eqn:E.
  - destruct (span p r) as [a' b'] eqn:E2. intros [= <- <-]. eapply IH. reflexivity.
  - intros [= <- <-]. cbn. congruence.
Qed.

Lemma escape_sound s b r : escape s = Some (b, r) -> exists e, s = e ++ r /\ escapes e r b.
Proof.
  unfold escape. destruct s as [|c s']; [discriminate|].
  destruct ((c =? 120) || (c =? 88)) eqn:Ex.
  { destruct (span_n 2 is_hex s') as [hs r'] eqn:E. destruct (span_n_spec _ _ _ _ _ E) as (H1 & H2 & ->).
    destruct hs as [|h hs]; [discriminate|]. intros [= <- <-]. exists (c :: h :: hs). split; [reflexivity|].
    apply es_hex; [unre; lia|exact H2|]. destruct (span_n_max _ _ _ _ _ E) as [L|[L N]]; [left; exact L|right]. cbn [length] in *.
    split; [lia|exact N]. }
  destruct (is_oct c) eqn:Eo.
  { destruct (span_n 3 is_oct (c :: s')) as [os r'] eqn:E. destruct (span_n_spec _ _ _ _ _ E) as (H1 & H2 & H3).
    destruct (radix_val 8 os <? 256) eqn:E8; [|discriminate]. intros [= <- <-]. exists os. split; [exact H3|].
    apply es_oct; [exact H2| |apply N.ltb_lt; exact E8].
    destruct (span_n_max _ _ _ _ _ E) as [L|[L N]]; [left; exact L|right]. split; [|exact N].
    destruct os as [|o os]; [|cbn [length] in *; lia]. cbn [app] in H3. subst r'. cbn [starts] in N. congruence. }
  destruct ((c =? 117) || (c =? 85)) eqn:Eu.
  { destruct (span_n (if c =? 117 then 4%nat else 8%nat) is_hex s') as [hs r'] eqn:E. destruct (span_n_spec _ _ _ _ _ E) as (H1 & H2 & ->).
    destruct (Nat.eqb (length hs) (if c =? 117 then 4%nat else 8%nat)) eqn:El; [|discriminate]. cbn [andb].
    destruct (is_char (radix_val 16 hs)) eqn:Ec; [|discriminate]. intros [= <- <-]. exists (c :: hs). split; [reflexivity|].
    apply es_unicode; [exact H2| |exact Ec]. apply Nat.eqb_eq in El. destruct (c =? 117) eqn:E117; [left|right]; (split; [lia|exact El]). }
  destruct (char_escape c) as [x|] eqn:Ec; [|discriminate]. intros [= <- <-]. exists [c]. split; [reflexivity|]. apply es_char.
  revert Ec. clear. unfold char_escape. repeat match goal with |- context [match ?c with _ => _ end] => is_var c; destruct c end; try discriminate.
  all: intros [= <-]; cbn; tauto.
Qed.
Lemma escape_complete e r b : escapes e r b -> escape (e ++ r) = Some (b, r).
Proof.
  intros H. destruct H as [x hs rest Hx Hh Hl | os rest Ho Hl Hv | c b rest Hin | u hs rest Hh Hl Hc]; unfold escape; cbn [app].
  - replace ((x =? 120) || (x =? 88)) with true by (unre; lia).
    rewrite span_n_app; [destruct hs; [cbn in Hl; lia|reflexivity]|exact Hh|]. destruct Hl as [Hl|[Hl Hn]]; [left; exact Hl|right; split; [lia|exact Hn]].
  - destruct os as [|o os]; [cbn in Hl; lia|]. inversion Ho; subst. cbn [app].
    replace ((o =? 120) || (o =? 88)) with false by (unre; lia). change (is_oct o) with (octal o). rewrite H1.
    change (o :: os ++ rest) with ((o :: os) ++ rest). rewrite (span_n_app is_oct (o :: os) rest 3); [|exact Ho|].
    + replace (radix_val 8 (o :: os) <? 256) with true by (symmetry; apply N.ltb_lt; exact Hv). reflexivity.
    + destruct Hl as [Hl|[Hl Hn]]; [left; exact Hl|right; split; [lia|exact Hn]].
  - cbn in Hin. repeat (destruct Hin as [Hin|Hin]; [injection Hin as <- <-; reflexivity|]). destruct Hin.
  - assert (u = 117 \/ u = 85) as U by tauto.
    replace ((u =? 120) || (u =? 88)) with false by lia. replace (is_oct u) with false by (unre; lia).
    replace ((u =? 117) || (u =? 85)) with true by lia.
    rewrite (span_n_app is_hex hs rest); [|exact Hh|left; destruct Hl as [[-> Hl]|[-> Hl]]; exact Hl].
    rewrite Hc. replace (Nat.eqb (length hs) _) with true; [reflexivity|]. symmetry. apply Nat.eqb_eq. destruct Hl as [[-> Hl]|[-> Hl]]; exact Hl.
Qed.

Lemma literal_sound n q : forall s v rest, (q = 34 \/ q = 39) -> string_loop n q s = Ok (Some (v, rest)) -> literal q s v rest.
Proof.
  induction n as [|n IH]; intros s v rest Hq; cbn [string_loop]; [discriminate|]. destruct s as [|c r]; [discriminate|].
  destruct (c =? q) eqn:Eq; [apply N.eqb_eq in Eq; subst c; intros [= <- <-]; apply li_end|].
  destruct (c =? 92) eqn:E92.
  { apply N.eqb_eq in E92. subst c. destruct (escape r) as [[bs r']|] eqn:Ee; [|discriminate].
    destruct (string_loop n q r') as [[[v' r'']|]| | |] eqn:E; cbn [rbind]; try discriminate. intros [= <- <-].
    destruct (escape_sound _ _ _ Ee) as (e & -> & He). apply li_escape; [exact He|]. apply IH; [exact Hq|exact E]. }
  destruct ((c =? 0) || (c =? 10)) eqn:E0; [discriminate|].
  destruct (string_loop n q r) as [[[v' r'']|]| | |] eqn:E; cbn [rbind]; try discriminate. intros [= <- <-].
  destruct ((c =? 34) || (c =? 39)) eqn:Eqq.
  - apply li_other; [lia|lia|]. apply IH; [exact Hq|exact E].
  - apply li_plain; [unre; lia|]. apply IH; [exact Hq|exact E].
Qed.
Lemma escapes_nonempty e r b : escapes e r b -> e <> [].
Proof. intros H. destruct H; try discriminate. intros ->. cbn in *. lia. Qed.
Lemma literal_complete q s v rest : (q = 34 \/ q = 39) -> literal q s v rest -> forall n, (length s < n)%nat -> string_loop n q s = Ok (Some (v, rest)).
Proof.
  intros Hq H. induction H; intros n Hn; (destruct n as [|n]; [lia|]); cbn [string_loop length] in *.
  - rewrite N.eqb_refl. reflexivity.
  - replace (c =? q) with false by (unre; lia). replace (c =? 92) with false by (unre; lia).
    replace ((c =? 0) || (c =? 10)) with false by (unre; lia). rewrite IHliteral by lia. reflexivity.
  - replace (c =? q) with false by lia. replace (c =? 92) with false by lia. replace ((c =? 0) || (c =? 10)) with false by lia.
    rewrite IHliteral by lia. reflexivity.
  - replace (backslash =? q) with false by (unfold backslash; lia). replace (backslash =? 92) with true by reflexivity.
    rewrite (escape_complete _ _ _ H). rewrite app_length in Hn. rewrite IHliteral; [reflexivity|].
    pose proof (escapes_nonempty _ _ _ H). destruct e; [congruence|]. cbn in Hn. lia.
Qed.
Lemma literal_fun q s v1 r1 v2 r2 : (q = 34 \/ q = 39) -> literal q s v1 r1 -> literal q s v2 r2 -> v1 = v2 /\ r1 = r2.
Proof.
  intros Hq H1 H2. pose proof (literal_complete _ _ _ _ Hq H1 (S (length s)) ltac:(lia)) as E1.
  pose proof (literal_complete _ _ _ _ Hq H2 (S (length s)) ltac:(lia)) as E2. rewrite E1 in E2. injection E2 as -> ->. auto.
Qed.

(** ** The longest match *)

Lemma pattern_at r a l : In (r, a) patterns -> matches r l -> nth_error patterns (which l) = Some (r, a).
Proof. intros H M. apply In_nth_error in H. destruct H as [i H]. rewrite (pattern_which _ _ _ _ H M). exact H. Qed.
Lemma match_nonempty r a l : In (r, a) patterns -> matches r l -> l <> [].
Proof. intros H M -> . pose proof (pattern_at _ _ _ H M) as E. cbn in E. discriminate. Qed.

(** a prefix of characters of one set *)
Lemma prefix_le p : forall a b x y, ~ starts p b -> all p x -> a ++ b = x ++ y -> (length x <= length a)%nat.
Proof.
  induction a as [|c a IH]; intros b x y Hb Hx; cbn [app length].
  - intros ->. destruct Hx as [|d x Hd Hx]; [cbn; lia|]. exfalso. apply Hb. exact Hd.
  - destruct Hx as [|d x Hd Hx]; [cbn; lia|]. cbn [app length]. intros [= <- E]. specialize (IH _ _ _ Hb Hx E). lia.
Qed.
Lemma prefix_eq p : forall a b x y, all p a -> ~ starts p b -> all p x -> ~ starts p y -> a ++ b = x ++ y -> a = x /\ b = y.
Proof.
  intros a b x y Ha Hb Hx Hy E. pose proof (prefix_le _ _ _ _ _ Hb Hx E) as L1. pose proof (prefix_le _ _ _ _ _ Hy Ha (eq_sym E)) as L2.
  assert (a = x) as ->; [|apply app_inv_head in E; auto].
  pose proof (f_equal (firstn (length a)) E) as F. rewrite firstn_app, Nat.sub_diag, firstn_all in F. cbn [firstn] in F. rewrite app_nil_r in F.
  replace (length a) with (length x) in F by lia. rewrite firstn_app, Nat.sub_diag, firstn_all in F. cbn [firstn] in F. rewrite app_nil_r in F. exact F.
Qed.
Lemma prefix_split p : forall a b x y, ~ starts p b -> all p x -> a ++ b = x ++ y -> exists t, a = x ++ t /\ y = t ++ b.
Proof.
  induction a as [|c a IH]; intros b x y Hb Hx; cbn [app].
  - intros ->. destruct Hx as [|d x Hd Hx]; [exists []; auto|]. exfalso. apply Hb. exact Hd.
  - destruct Hx as [|d x Hd Hx]; [exists (c :: a); split; [reflexivity|symmetry; assumption]|].
    cbn [app]. intros [= <- E]. destruct (IH _ _ _ Hb Hx E) as (t & -> & ->). exists t. auto.
Qed.

(** exponents and suffixes *)
Lemma exponent_sound r e r2 : exponent r = Some (e, r2) -> r = e ++ r2 /\ matches exp_re e /\ ~ starts digit r2.
Proof.
  unfold exponent. destruct r as [|c r]; [discriminate|]. destruct ((c =? 101) || (c =? 69)) eqn:Ec; [|discriminate].
  assert (H : forall sg r1, r = sg ++ r1 -> matches (Opt (Set_ (any_of "+-"))) sg ->
    (let (ds, r2) := span is_digit r1 in match ds with [] => None | _ :: _ => Some (c :: sg ++ ds, r2) end) = Some (e, r2) ->
    c :: r = e ++ r2 /\ matches exp_re e /\ ~ starts digit r2).
  { intros sg r1 -> Hs. destruct (span is_digit r1) as [ds r3] eqn:E. destruct ds as [|d ds]; [discriminate|]. intros [= <- <-].
    pose proof (span_length _ _ _ _ E) as ->. cbn [app]. split; [rewrite <- app_assoc; reflexivity|]. split; [|exact (span_max _ _ _ _ E)].
    exists [c], (sg ++ d :: ds). split; [reflexivity|]. split; [exists c; split; [reflexivity|unre; lia]|].
    exists sg, (d :: ds). split; [reflexivity|]. split; [exact Hs|]. split; [discriminate|]. exact (span_all _ _ _ _ E). }
  destruct r as [|d r]; [discriminate|]. intros E. 
  destruct (N.eq_dec d 43) as [->|N1]; [exact (H [43] r eq_refl (or_intror (ex_intro _ 43 (conj eq_refl eq_refl))) E)|].
  destruct (N.eq_dec d 45) as [->|N2]; [exact (H [45] r eq_refl (or_intror (ex_intro _ 45 (conj eq_refl eq_refl))) E)|].
  apply (H [] (d :: r) eq_refl (or_introl eq_refl)). revert E.
  assert ((match d with 43 => ([43], r) | 45 => ([45], r) | _ => ([], d :: r) end) = ([], d :: r)) as ->; [|auto].
  destruct d as [|p]; [reflexivity|]. repeat (destruct p as [p|p|]; try reflexivity); congruence.
Qed.
Lemma exponent_complete e t : matches exp_re e -> exists e' r2, exponent (e ++ t) = Some (e', r2) /\
  (e' = e /\ r2 = t \/ (length e < length e')%nat /\ starts digit t).
Proof.
  intros (? & ? & -> & (c & -> & Hc) & sg & ds & -> & Hs & Hne & Hd). cbn [app]. unfold exponent.
  replace ((c =? 101) || (c =? 69)) with true by (unre; lia).
  assert (H : exists e' r2, (let (ds0, r2) := span is_digit (ds ++ t) in match ds0 with [] => None | _ :: _ => Some (c :: sg ++ ds0, r2) end) = Some (e', r2) /\
    (e' = c :: sg ++ ds /\ r2 = t \/ (length (c :: sg ++ ds) < length e')%nat /\ starts digit t)).
  { destruct (span is_digit (ds ++ t)) as [ds' r2] eqn:E. pose proof (span_length _ _ _ _ E) as L. pose proof (span_max _ _ _ _ E) as M.
    pose proof (span_all _ _ _ _ E) as A. symmetry in L. destruct (prefix_split digit _ _ _ _ M Hd L) as (u & -> & ->).
    destruct ds as [|d ds]; [congruence|]. cbn [app]. eexists _, _. split; [reflexivity|]. destruct u as [|u0 u].
    - left. rewrite app_nil_r. auto.
    - right. cbn [app starts length]. rewrite !app_length. cbn [length]. rewrite app_length. cbn [length]. split; [lia|].
      rewrite Forall_forall in A. apply A. right. apply in_or_app. right. left. reflexivity. }
  destruct Hs as [->|(d & -> & Hsd)]; cbn [app] in *.
  - destruct ds as [|d ds]; [congruence|]. cbn [app] in *. inversion Hd; subst.
    assert ((match d with 43 => ([43], ds ++ t) | 45 => ([45], ds ++ t) | _ => ([], d :: ds ++ t) end) = ([], d :: ds ++ t)) as ->; [|exact H].
    assert (d <> 43 /\ d <> 45) as [N1 N2] by (unre; lia).
    destruct d as [|p]; [reflexivity|]. repeat (destruct p as [p|p|]; try reflexivity); congruence.
  - assert (d = 43 \/ d = 45) as [-> | ->] by (unre; lia); exact H.
Qed.
Lemma exponent_none r e t : exponent r = None -> matches exp_re e -> r <> e ++ t.
Proof. intros H M ->. destruct (exponent_complete e t M) as (? & ? & E & _). congruence. Qed.

Definition tail_len (r : bytes) : nat :=
  let (e, r2) := opt_exponent r in (length e + if has_suffix r2 then 1 else 0)%nat.
Lemma suffix_max f t : matches f_re f -> (length f <= if has_suffix (f ++ t) then 1 else 0)%nat.
Proof.
  intros [->|(c & -> & Hc)]; cbn [length app has_suffix]; [lia|]. replace ((c =? 102) || (c =? 70)) with true by (unre; lia). lia.
Qed.
Lemma exp_suffix_max e f t : matches exp_re e -> matches f_re f ->
  (length (e ++ f) <= tail_len (e ++ f ++ t))%nat.
Proof.
  intros He Hf. unfold tail_len, opt_exponent. destruct (exponent_complete e (f ++ t) He) as (e' & r2 & -> & [[-> ->]|[L S]]); rewrite app_length.
  - pose proof (suffix_max f t Hf). lia.
  - assert (f = []) as ->; [|cbn [length]; lia]. destruct Hf as [->|(c & -> & Hc)]; [reflexivity|]. cbn [app starts] in S. exfalso. unre. lia.
Qed.
Lemma tail_max e f t : matches (Opt exp_re) e -> matches f_re f -> (length (e ++ f) <= tail_len (e ++ f ++ t))%nat.
Proof.
  intros [->|He] Hf; [|apply exp_suffix_max; assumption]. cbn [app]. unfold tail_len, opt_exponent.
  destruct Hf as [->|(c & -> & Hc)]; [cbn; lia|]. cbn [app length]. unfold exponent.
  replace ((c =? 101) || (c =? 69)) with false by (unre; lia). cbn [has_suffix].
  replace ((c =? 102) || (c =? 70)) with true by (unre; lia). cbn. lia.
Qed.
(** digits, an exponent and a suffix *)
Lemma frac_max ds e f t : all digit ds -> matches (Opt exp_re) e -> matches f_re f ->
  (length (ds ++ e ++ f) <= length (fst (span is_digit (ds ++ e ++ f ++ t))) + tail_len (snd (span is_digit (ds ++ e ++ f ++ t))))%nat.
Proof.
  intros Hd He Hf. destruct (span is_digit (ds ++ e ++ f ++ t)) as [a b] eqn:E. cbn [fst snd].
  pose proof (span_length _ _ _ _ E) as L. pose proof (span_max _ _ _ _ E) as M.
  destruct (prefix_split digit _ _ _ _ M Hd (eq_sym L)) as (u & -> & U).
  destruct u as [|u0 u].
  - cbn [app] in U. subst b. pose proof (tail_max e f t He Hf). rewrite !app_length in *. cbn [length] in *. lia.
  - pose proof (span_all _ _ _ _ E) as A. apply Forall_app in A. destruct A as [_ A]. inversion A; subst.
    assert (e = []) as ->. { destruct He as [->|(? & ? & -> & (c & -> & Hc) & _)]; [reflexivity|]. cbn [app] in U. injection U as -> _. exfalso. unre. lia. }
    assert (f = []) as ->. { destruct Hf as [->|(c & -> & Hc)]; [reflexivity|]. cbn [app] in U. injection U as -> _. exfalso. unre. lia. }
    rewrite !app_length. cbn [length]. lia.
Qed.
