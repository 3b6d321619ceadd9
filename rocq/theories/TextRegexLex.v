(** The tokens of the lexer are those of the longest matches. *)
From Coq Require Import String ZifyBool.
From Verif Require Import Base BaseProofs Wire Float TextLex TextLexProofs TextTokens TextRegex TextRegexProofs.
Open Scope list_scope.
Open Scope N_scope.

(** what the function [number] and its like must be: the outcome of the longest
    match *)
Definition outcome (s : bytes) (o : option (tok * bytes)) : Prop :=
  exists l rest act, s = l ++ rest /\ longest l rest (Gives act) /\
    match o with Some x => act l rest x | None => forall x, ~ act l rest x end.

Ltac pat i := apply (nth_error_In patterns i); reflexivity.

Lemma nof b : has (any_of "fF") b = false -> ~ starts (any_of "fF") (rev b).
Proof.
  intros H S. destruct (rev b) as [|c r] eqn:E; [exact S|]. assert (In c b) as Hin by (apply in_rev; rewrite E; left; reflexivity).
  assert (has (any_of "fF") b = true) by (apply existsb_exists; exists c; auto). congruence.
Qed.
Lemma opt_suffix_split r : exists sfx, r = sfx ++ opt_suffix r /\ matches f_re sfx /\ (sfx = [] \/ sfx = s2b "f" \/ sfx = s2b "F") /\
  length sfx = (if has_suffix r then 1 else 0)%nat.
Proof.
  destruct r as [|c r]; cbn [opt_suffix has_suffix]; [exists []; cbn; auto|]. destruct ((c =? 102) || (c =? 70)) eqn:E.
  - exists [c]. split; [reflexivity|]. split; [right; exists c; split; [reflexivity|unre; lia]|]. split; [|reflexivity].
    right. assert (c = 102 \/ c = 70) as [-> | ->] by lia; [left|right]; reflexivity.
  - exists []. cbn. auto.
Qed.
Lemma exp_nof e : matches (Opt exp_re) e -> has (any_of "fF") e = false.
Proof.
  intros [->|(? & ? & -> & (x & -> & Hx) & sg & ds & -> & Hs & _ & Hd)]; [reflexivity|].
  rewrite !has_app, (has_none digit _ ds) by (auto; intros; unre; lia).
  destruct Hs as [->|(d & -> & Hd')]; cbn [has existsb]; unre; lia.
Qed.

(** the matches at a number *)
Lemma number_inv ds rest r a l rest' : all digit ds -> ds <> [] -> ~ starts digit rest -> In (r, a) patterns -> matches r l ->
  ds ++ rest = l ++ rest' ->
  (l = [48] /\ exists ds', ds = 48 :: ds') \/
  ((length l <= length ds)%nat /\ exists d ds', ds = d :: ds' /\ nonzero d = true) \/
  (exists ds' os u, ds = 48 :: ds' /\ l = 48 :: os /\ os <> [] /\ all octal os /\ ds' = os ++ u) \/
  (ds = [48] /\ exists x hs u, any_of "xX" x = true /\ rest = x :: hs ++ u /\ hs <> [] /\ all hexa hs /\ l = 48 :: x :: hs) \/
  (ds = [48] /\ exists f u, rest = f :: u /\ any_of "fF" f = true /\ length l = 2%nat) \/
  (exists d ds' f u, ds = d :: ds' /\ nonzero d = true /\ rest = f :: u /\ any_of "fF" f = true /\ length l = S (length ds)) \/
  (exists fs e f u, rest = 46 :: fs ++ e ++ f ++ u /\ all digit fs /\ matches (Opt exp_re) e /\ matches f_re f /\
    length l = (S (length ds) + length (fs ++ e ++ f))%nat) \/
  (exists e f u, rest = e ++ f ++ u /\ matches exp_re e /\ matches f_re f /\ length l = (length ds + length (e ++ f))%nat).
Proof.
  intros Hd Hne Hr Hin M E. pose proof (pattern_at _ _ _ Hin M) as P. pose proof (match_nonempty _ _ _ Hin M) as Ln.
  destruct ds as [|d ds]; [congruence|]. destruct l as [|c l]; [congruence|]. cbn [app] in E. injection E as <- E.
  assert (Dd : digit d = true) by (inversion Hd; assumption). assert (Ds : all digit ds) by (inversion Hd; assumption).
  rewrite which_digit in P by exact Dd.
  repeat match type of P with context [if ?b then _ else _] => let X := fresh "X" in destruct b eqn:X end;
    try match type of P with context [match l with _ => _ end] => destruct l as [|c l] end; injection P as <- <-; cbn [matches] in M.
  - (* ds . ds exp f *) do 6 right. left.
    destruct M as (x & ? & E1 & [N1 D1] & ? & ? & -> & (dot & -> & Hdot) & fs & ? & -> & Hfs & e & f & -> & He & Hf).
    destruct x as [|x0 x]; [congruence|]. cbn [app] in E1. injection E1 as <- ->. inversion D1; subst.
    repeat (rewrite <- app_assoc in E || (progress cbn [app] in E)). destruct (prefix_eq digit ds rest x (dot :: fs ++ e ++ f ++ rest')) as [-> ->]; [exact Ds|exact Hr|assumption|cbn [starts]; unre; lia|exact E|].
    exists fs, e, f, rest'. assert (dot = 46) as -> by (unre; lia). split; [reflexivity|]. split; [exact Hfs|]. split; [exact He|].
    split; [exact Hf|]. cbn [length app]. rewrite !app_length. cbn [length]. rewrite !app_length. lia.
  - (* hex *) do 3 right. left.
    destruct M as (? & ? & E1 & (z & -> & Hz) & ? & hs & -> & (x & -> & Hx) & Hn & Hh). cbn [app] in E1. injection E1 as <- ->.
    assert (d = 48) as -> by (unre; lia). cbn [app] in E. destruct ds as [|d2 ds].
    + split; [reflexivity|]. cbn [app] in E. exists x, hs, rest'. auto.
    + exfalso. cbn [app] in E. injection E as -> _. inversion Ds; subst. unre. lia.
  - (* ds exp f *) do 7 right.
    destruct M as (x & ? & E1 & [N1 D1] & e & f & -> & He & Hf).
    destruct x as [|x0 x]; [congruence|]. cbn [app] in E1. injection E1 as <- ->. inversion D1; subst.
    repeat (rewrite <- app_assoc in E || (progress cbn [app] in E)). destruct (prefix_eq digit ds rest x (e ++ f ++ rest')) as [-> ->]; [exact Ds|exact Hr|assumption| |exact E|].
    { destruct He as (? & ? & -> & (y & -> & Hy) & _). cbn [app starts]. unre. lia. }
    exists e, f, rest'. split; [reflexivity|]. split; [exact He|]. split; [exact Hf|]. cbn [length]. rewrite !app_length. lia.
  - (* 0f *) do 4 right. left. destruct M as (? & ? & E1 & (z & -> & Hz) & (x & -> & Hx)). cbn [app] in E1. injection E1 as <- ->.
    cbn [app] in E. destruct ds as [|d2 ds].
    + assert (d = 48) as -> by (unre; lia). split; [reflexivity|]. exists x, rest'. auto.
    + exfalso. cbn [app] in E. injection E as -> _. inversion Ds; subst. unre. lia.
  - (* Nf *) do 5 right. left. destruct M as (? & ? & E1 & (z & -> & Hz) & x0 & ? & -> & H2 & (x1 & -> & Hx1)). cbn [app] in E1. injection E1 as <- ->.
    rewrite <- app_assoc in E. destruct (prefix_eq digit ds rest x0 ([x1] ++ rest')) as [-> ->]; [exact Ds|exact Hr|assumption|cbn [app starts]; unre; lia|exact E|].
    exists d, x0, x1, rest'. split; [reflexivity|]. split; [exact Hz|]. split; [reflexivity|]. split; [exact Hx1|]. cbn [length]. rewrite app_length. cbn [length]. lia.
  - (* 0 *) left. assert (d = 48) as -> by (unre; lia). split; [reflexivity|]. exists ds. reflexivity.
  - (* octal *) destruct M as (? & os & E1 & (z & -> & Hz) & Hn & Ho). cbn [app] in E1. injection E1 as <- E1. rewrite E1 in E.
    assert (all digit os) as Hol by (eapply Forall_impl; [|exact Ho]; cbn; intros; unre; lia).
    destruct (prefix_split digit ds rest os rest' Hr Hol E) as (u & -> & _).
    right. right. left. assert (d = 48) as -> by (unre; lia). exists (os ++ u), os, u. rewrite E1. repeat split; auto.
  - (* N *) right. left. destruct M as (? & ? & E1 & (z & -> & Hz) & Hx). cbn [app] in E1. injection E1 as <- <-.
    destruct (prefix_split digit ds rest l rest' Hr Hx E) as (u & -> & _). split; [cbn [length]; rewrite app_length; lia|]. exists d, (l ++ u). auto.
Qed.

Definition plain_number (ds rest : bytes) : option (tok * bytes) :=
  if has_suffix rest then Some (TFloat ds, opt_suffix rest) else int_tok ds 10 rest.
Definition zero_number (ds' rest : bytes) : option (tok * bytes) :=
  match ds' with
  | [] =>
      match rest with
      | c :: r =>
          if (c =? 120) || (c =? 88) then
            match span is_hex r with
            | ([], _) => int_tok [48] 10 rest
            | (hs, r1) => int_tok hs 16 r1
            end
          else if has_suffix rest then Some (TFloat [48], r)
          else int_tok [48] 10 rest
      | [] => int_tok [48] 10 rest
      end
  | _ :: _ =>
      match span is_oct ds' with
      | ([], _) => int_tok [48] 10 (ds' ++ rest)
      | (os, r1) => int_tok os 8 (r1 ++ rest)
      end
  end.
Definition dot_number (ds r : bytes) : option (tok * bytes) :=
  let (fs, r1) := span is_digit r in
  let (e, r2) := opt_exponent r1 in
  Some (TFloat (ds ++ 46 :: fs ++ e), opt_suffix r2).
Definition dotless (ds rest : bytes) : option (tok * bytes) :=
  match exponent rest with
  | Some (e, r2) => Some (TFloat (ds ++ e), opt_suffix r2)
  | None => match ds with
            | [] => plain_number ds rest
            | d :: ds' => if d =? 48 then zero_number ds' rest else plain_number ds rest
            end
  end.
Lemma number_eq ds rest : number ds rest =
  match rest with
  | [] => dotless ds rest
  | c :: r => if c =? 46 then dot_number ds r else dotless ds rest
  end.
Proof.
  assert (D : (match rest with 46 :: _ => False | _ => True end) -> number ds rest = dotless ds rest).
  { intros H. unfold number, dotless. destruct rest as [|c r].
    - cbn [exponent]. destruct ds as [|d ds]; [reflexivity|].
      destruct d as [|p]; [reflexivity|]. repeat (destruct p as [p|p|]; try reflexivity).
    - assert ((match ds with 48 :: ds' => zero_number ds' (c :: r) | _ => plain_number ds (c :: r) end) =
        match ds with [] => plain_number ds (c :: r) | d :: ds' => if d =? 48 then zero_number ds' (c :: r) else plain_number ds (c :: r) end) as <-.
      { destruct ds as [|d ds]; [reflexivity|]. destruct d as [|p]; [reflexivity|]. repeat (destruct p as [p|p|]; try reflexivity). }
      destruct c as [|p]; [reflexivity|]. repeat (destruct p as [p|p|]; try reflexivity); destruct H. }
  destruct rest as [|c r]; [apply D; exact Logic.I|]. destruct (c =? 46) eqn:E.
  - apply N.eqb_eq in E. subst c. reflexivity.
  - apply D. destruct c as [|p]; [exact Logic.I|]. repeat (destruct p as [p|p|]; try exact Logic.I); discriminate.
Qed.

Lemma touches_starts s : touches s = true <-> starts letter_ s.
Proof. destruct s as [|c s]; cbn [touches starts]; [split; [discriminate|intros []]|]. unre. lia. Qed.
Lemma int_outcome s l rest radix prefix digits : s = l ++ rest -> longest l rest (Gives (int_act radix prefix)) -> skipn prefix l = digits ->
  outcome s (int_tok digits radix rest).
Proof.
  intros -> L <-. exists l, rest, (int_act radix prefix). split; [reflexivity|]. split; [exact L|]. unfold int_tok.
  destruct (touches rest) eqn:E.
  - intros x [H _]. apply H, touches_starts, E.
  - split; [|reflexivity]. intros S. apply touches_starts in S. congruence.
Qed.
Lemma float_outcome s l rest b sfx rest' : s = l ++ rest -> longest l rest (Gives float_act) -> l = b ++ sfx -> has (any_of "fF") b = false ->
  (sfx = [] \/ sfx = s2b "f" \/ sfx = s2b "F") -> rest' = rest -> outcome s (Some (TFloat b, rest')).
Proof.
  intros -> L E Hb Hs ->. exists l, rest, float_act. split; [reflexivity|]. split; [exact L|]. exists b, sfx. repeat split; auto. apply nof. exact Hb.
Qed.

Section Number.
  Variable (ds rest : bytes).
  Hypothesis (Hd : all digit ds) (Hne : ds <> []) (Hr : ~ starts digit rest).

  Ltac inv_number H1 H2 H3 := destruct (number_inv _ _ _ _ _ _ Hd Hne Hr H1 H2 H3) as
    [(C1 & dw & C2) | [(C1 & dv & dw & C2 & C3) | [(dw & os' & u & C1 & C2 & C3 & C4 & C5) | [(C1 & x' & hs' & u & C2 & C3 & C4 & C5 & C6) |
     [(C1 & f' & u & C2 & C3 & C4) | [(dv & dw & f' & u & C1 & C2 & C3 & C4 & C5) | [(fs' & e' & f' & u & C1 & C2 & C3 & C4 & C5) |
     (e' & f' & u & C1 & C2 & C3 & C4)]]]]]]].

  Lemma ds_nof : has (any_of "fF") ds = false.
  Proof. apply (has_none digit); [exact Hd|]. intros. unre. lia. Qed.

  Lemma dot_outcome r : rest = 46 :: r -> outcome (ds ++ rest) (dot_number ds r).
  Proof.
    intros ->. unfold dot_number. destruct (span is_digit r) as [fs r1] eqn:Es. destruct (opt_exponent r1) as [e r2] eqn:Ee.
    pose proof (span_length _ _ _ _ Es) as ->. pose proof (span_all _ _ _ _ Es) as Af.
    assert (r1 = e ++ r2 /\ matches (Opt exp_re) e) as [-> He].
    { unfold opt_exponent in Ee. destruct (exponent r1) as [[e' r2']|] eqn:E1; injection Ee as <- <-; [|split; [reflexivity|left; reflexivity]].
      destruct (exponent_sound _ _ _ E1) as (-> & He & _). split; [reflexivity|right; exact He]. }
    destruct (opt_suffix_split r2) as (sfx & S1 & S2 & S3 & S4).
    apply float_outcome with (l := ds ++ 46 :: fs ++ e ++ sfx) (rest := opt_suffix r2) (sfx := sfx); auto.
    - rewrite S1 at 1. repeat (rewrite <- app_assoc || (progress cbn [app])). reflexivity.
    - split.
      + eexists. split; [pat 9%nat|]. exists ds, (46 :: fs ++ e ++ sfx). split; [reflexivity|]. split; [split; assumption|].
        exists [46], (fs ++ e ++ sfx). split; [reflexivity|]. split; [exists 46; split; reflexivity|]. exists fs, (e ++ sfx). split; [reflexivity|].
        split; [exact Af|]. exists e, sfx. auto.
      + intros r0 b l' rest' H1 H2 H3. assert (E3 : ds ++ 46 :: fs ++ e ++ r2 = l' ++ rest').
        { rewrite <- H3. rewrite S1 at 1. repeat (rewrite <- app_assoc || (progress cbn [app])). reflexivity. }
        clear H3. inv_number H1 H2 E3; rewrite !app_length; cbn [length].
        * subst l'. cbn [length]. lia.
        * lia.
        * subst. cbn [length]. rewrite app_length. lia.
        * injection C3 as <- _. discriminate.
        * injection C2 as <- _. discriminate.
        * injection C3 as <- _. discriminate.
        * injection C1 as C1. pose proof (frac_max fs' e' f' u C2 C3 C4) as F. rewrite <- C1, Es in F. cbn [fst snd] in F.
          unfold tail_len in F. rewrite Ee in F. rewrite !app_length in *. lia.
        * destruct C2 as (? & ? & -> & (y & -> & Hy) & _). cbn [app] in C1. injection C1 as <- _. discriminate.
    - repeat (rewrite <- app_assoc || (progress cbn [app])). reflexivity.
    - rewrite has_app, ds_nof. change (46 :: fs ++ e) with ([46] ++ fs ++ e). rewrite !has_app, (exp_nof e He), (has_none digit _ fs) by (auto; intros; unre; lia). reflexivity.
  Qed.

  Hypothesis Hnd : match rest with c :: _ => c <> 46 | [] => True end.

  Lemma exp_outcome e r2 : exponent rest = Some (e, r2) -> outcome (ds ++ rest) (Some (TFloat (ds ++ e), opt_suffix r2)).
  Proof.
    intros Ee. destruct (exponent_sound _ _ _ Ee) as (Er & He & _). destruct (opt_suffix_split r2) as (sfx & S1 & S2 & S3 & S4).
    apply float_outcome with (l := ds ++ e ++ sfx) (rest := opt_suffix r2) (sfx := sfx); auto.
    - rewrite Er. rewrite S1 at 1. rewrite <- !app_assoc. reflexivity.
    - split.
      + eexists. split; [pat 10%nat|]. exists ds, (e ++ sfx). split; [reflexivity|]. split; [split; assumption|]. exists e, sfx. auto.
      + intros r0 b l' rest' H1 H2 H3. assert (E3 : ds ++ rest = l' ++ rest').
        { rewrite <- H3, Er. rewrite S1 at 1. rewrite <- !app_assoc. reflexivity. }
        clear H3. destruct He as (? & ? & -> & (y & -> & Hy) & He). cbn [app] in Er.
        inv_number H1 H2 E3; rewrite !app_length; cbn [length].
        * subst l'. cbn [length]. lia.
        * lia.
        * subst. cbn [length]. rewrite app_length. lia.
        * rewrite C3 in Er. injection Er as <- _. exfalso. unre. lia.
        * rewrite C2 in Er. injection Er as <- _. exfalso. unre. lia.
        * rewrite C3 in Er. injection Er as <- _. exfalso. unre. lia.
        * rewrite C1 in Er. injection Er as <- _. discriminate.
        * pose proof (exp_suffix_max e' f' u C2 C3) as F. rewrite <- C1 in F. unfold tail_len, opt_exponent in F. rewrite Ee in F.
          rewrite !app_length in *. cbn [length] in *. lia.
    - rewrite <- app_assoc. reflexivity.
    - rewrite has_app, ds_nof. apply exp_nof. right. exact He.
  Qed.

  Hypothesis Hne_exp : exponent rest = None.

  Ltac inv_plain H1 H2 H3 := inv_number H1 H2 H3;
    [| | | | | |solve [exfalso; match goal with C : _ = 46 :: _ |- _ => first [rewrite C in Hnd; cbn in Hnd; congruence | cbn in Hnd; congruence] end]|
     solve [exfalso; match goal with C : matches exp_re ?e |- _ => eapply (exponent_none _ e); [exact Hne_exp|exact C|eassumption] end]].

  Lemma plain_outcome d dz : ds = d :: dz -> nonzero d = true -> outcome (ds ++ rest) (plain_number ds rest).
  Proof.
    intros Eds Hz. unfold plain_number. destruct (has_suffix rest) eqn:Es.
    - destruct (opt_suffix_split rest) as (sfx & S1 & S2 & S3 & S4). rewrite Es in S4.
      apply float_outcome with (l := ds ++ sfx) (rest := opt_suffix rest) (sfx := sfx); auto; [|split|exact ds_nof].
      + rewrite S1 at 1. rewrite app_assoc. reflexivity.
      + destruct S2 as [->|S2]; [discriminate|]. eexists. split; [pat 8%nat|]. subst ds. exists [d], (dz ++ sfx). split; [reflexivity|].
        split; [exists d; auto|]. exists dz, sfx. split; [reflexivity|]. split; [inversion Hd; assumption|exact S2].
      + intros r0 b l' rest' H1 H2 H3. assert (E3 : ds ++ rest = l' ++ rest').
        { rewrite <- H3. rewrite S1 at 1. rewrite app_assoc. reflexivity. }
        clear H3. inv_plain H1 H2 E3; rewrite !app_length, S4.
        * subst l'. cbn [length]. lia.
        * lia.
        * rewrite Eds in C1. injection C1 as -> _. discriminate.
        * rewrite Eds in C1. injection C1 as -> _. discriminate.
        * rewrite Eds in C1. injection C1 as -> _. discriminate.
        * lia.
    - apply int_outcome with (l := ds) (prefix := 0%nat); [reflexivity| |reflexivity]. split.
      + eexists. split; [pat 4%nat|]. subst ds. exists [d], dz. split; [reflexivity|]. split; [exists d; auto|]. inversion Hd; assumption.
      + intros r0 b l' rest' H1 H2 H3. inv_plain H1 H2 H3.
        * subst l' ds. cbn [length]. lia.
        * lia.
        * rewrite Eds in C1. injection C1 as -> _. discriminate.
        * rewrite Eds in C1. injection C1 as -> _. discriminate.
        * rewrite Eds in C1. injection C1 as -> _. discriminate.
        * exfalso. rewrite C3 in Es. cbn [has_suffix] in Es. unre. lia.
  Qed.

  Lemma zero_outcome dz : ds = 48 :: dz -> outcome (ds ++ rest) (zero_number dz rest).
  Proof.
    intros Eds. unfold zero_number.
    assert (Z : (forall os u, dz = os ++ u -> os <> [] -> all octal os -> False) ->
      (dz = [] -> forall x hs u, any_of "xX" x = true -> rest = x :: hs ++ u -> hs <> [] -> all hexa hs -> False) ->
      (dz = [] -> has_suffix rest = false) -> longest [48] (dz ++ rest) (Gives (int_act 10 0))).
    { intros K1 K2 K3. split; [eexists; split; [pat 3%nat|]; exists 48; split; reflexivity|].
      intros r0 b l' rest' H1 H2 H3. assert (E3 : ds ++ rest = l' ++ rest') by (rewrite <- H3, Eds; reflexivity). clear H3.
      inv_plain H1 H2 E3; [|exfalso..].
      - subst l'. cbn [length]. lia.
      - rewrite Eds in C2. injection C2 as <- _. discriminate.
      - rewrite Eds in C1. injection C1 as <-. eapply K1; eassumption.
      - rewrite Eds in C1. injection C1 as ->. eapply K2; eauto.
      - rewrite Eds in C1. injection C1 as ->. specialize (K3 eq_refl). rewrite C2 in K3. cbn [has_suffix] in K3. unre. lia.
      - rewrite Eds in C1. injection C1 as <- _. discriminate. }
    destruct dz as [|d1 dz].
    - assert (N1 : forall (os u : bytes), [] = os ++ u -> os <> [] -> all octal os -> False).
      { intros os u E N _. symmetry in E. apply app_eq_nil in E. destruct E. congruence. }
      destruct rest as [|c r] eqn:Erest.
      + apply int_outcome with (l := [48]) (prefix := 0%nat); [rewrite Eds; reflexivity| |reflexivity]. apply Z; [exact N1|intros; discriminate|reflexivity].
      + destruct ((c =? 120) || (c =? 88)) eqn:Ex.
        * destruct (span is_hex r) as [hs r1] eqn:Eh. pose proof (span_length _ _ _ _ Eh) as ->. pose proof (span_all _ _ _ _ Eh) as Ah. pose proof (span_max _ _ _ _ Eh) as Mh.
          destruct hs as [|h hs].
          { apply int_outcome with (l := [48]) (prefix := 0%nat); [rewrite Eds; reflexivity| |reflexivity].
            apply Z; [exact N1| |intros _; cbn [has_suffix]; unre; lia]. intros _ x hs u Hx E Hn Hh. injection E as <- E. cbn [app] in E. subst r1.
            destruct Hh as [|h hs Hh Hs]; [congruence|]. apply Mh. exact Hh. }
          apply int_outcome with (l := 48 :: c :: h :: hs) (prefix := 2%nat); [rewrite Eds; reflexivity| |reflexivity].
          split.
          { eexists. split; [pat 6%nat|]. exists [48], (c :: h :: hs). split; [reflexivity|]. split; [exists 48; split; reflexivity|].
            exists [c], (h :: hs). split; [reflexivity|]. split; [exists c; split; [reflexivity|unre; lia]|]. split; [discriminate|exact Ah]. }
          intros r0 b l' rest' H1 H2 H3. assert (E3 : ds ++ c :: (h :: hs) ++ r1 = l' ++ rest') by (rewrite <- H3, Eds; reflexivity). clear H3.
          inv_plain H1 H2 E3.
          -- subst l'. cbn [length]. lia.
          -- rewrite Eds in C2. injection C2 as <- _. discriminate.
          -- rewrite Eds in C1. injection C1 as <-. exfalso. eapply N1; eassumption.
          -- injection C3 as <- C3. subst l'. pose proof (prefix_le hexa (h :: hs) r1 hs' u Mh C5 C3). cbn [length] in *. lia.
          -- injection C2 as <- _. exfalso. unre. lia.
          -- rewrite Eds in C1. injection C1 as <- _. discriminate.
        * destruct (has_suffix (c :: r)) eqn:Es.
          { apply float_outcome with (l := [48; c]) (rest := r) (sfx := [c]); [rewrite Eds; reflexivity|split|reflexivity|reflexivity| |reflexivity].
            - eexists. split; [pat 7%nat|]. exists [48], [c]. split; [reflexivity|]. split; [exists 48; split; reflexivity|]. exists c. split; [reflexivity|].
              cbn [has_suffix] in Es. unre. lia.
            - intros r0 b l' rest' H1 H2 H3. assert (E3 : ds ++ c :: r = l' ++ rest') by (rewrite <- H3, Eds; reflexivity). clear H3.
              inv_plain H1 H2 E3; cbn [length].
              + subst l'. cbn [length]. lia.
              + rewrite Eds in C2. injection C2 as <- _. discriminate.
              + rewrite Eds in C1. injection C1 as <-. exfalso. eapply N1; eassumption.
              + injection C3 as <- _. exfalso. unre. lia.
              + lia.
              + rewrite Eds in C1. injection C1 as <- _. discriminate.
            - cbn [has_suffix] in Es. right. assert (c = 102 \/ c = 70) as [-> | ->] by lia; [left|right]; reflexivity. }
          apply int_outcome with (l := [48]) (prefix := 0%nat); [rewrite Eds; reflexivity| |reflexivity]. apply Z; [exact N1| |auto].
          intros _ x hs u Hx E _ _. injection E as <- _. unre. lia.
    - destruct (span is_oct (d1 :: dz)) as [os r1] eqn:Eo. pose proof (span_length _ _ _ _ Eo) as Lo. pose proof (span_all _ _ _ _ Eo) as Ao. pose proof (span_max _ _ _ _ Eo) as Mo.
      destruct os as [|o os].
      + cbn [app] in Lo. subst r1. apply int_outcome with (l := [48]) (prefix := 0%nat); [rewrite Eds; reflexivity| |reflexivity].
        apply Z; [|discriminate|discriminate]. intros os u E Hn Ho. destruct Ho as [|o os Ho Hos]; [congruence|]. cbn [app] in E. injection E as -> _. apply Mo. exact Ho.
      + apply int_outcome with (l := 48 :: o :: os) (prefix := 1%nat); [rewrite Eds, Lo; cbn [app]; rewrite <- app_assoc; reflexivity| |reflexivity].
        split.
        { eexists. split; [pat 5%nat|]. exists [48], (o :: os). split; [reflexivity|]. split; [exists 48; split; reflexivity|]. split; [discriminate|exact Ao]. }
        intros r0 b l' rest' H1 H2 H3. assert (E3 : ds ++ rest = l' ++ rest') by (rewrite <- H3, Eds, Lo; cbn [app]; rewrite <- app_assoc; reflexivity). clear H3.
        inv_plain H1 H2 E3; cbn [length].
        -- subst l'. cbn [length]. lia.
        -- rewrite Eds in C2. injection C2 as <- _. discriminate.
        -- rewrite Eds in C1. injection C1 as <-. subst l'. rewrite Lo in C5. pose proof (prefix_le octal (o :: os) r1 os' u Mo C4 C5). cbn [length] in *. lia.
        -- rewrite Eds in C1. discriminate.
        -- rewrite Eds in C1. discriminate.
        -- rewrite Eds in C1. injection C1 as <- _. discriminate.
  Qed.
End Number.

Lemma number_outcome ds rest : all digit ds -> ds <> [] -> ~ starts digit rest -> outcome (ds ++ rest) (number ds rest).
Proof.
  intros Hd Hne Hr. rewrite number_eq. assert (D : match rest with c :: _ => c <> 46 | [] => True end -> outcome (ds ++ rest) (dotless ds rest)).
  { intros Hnd. unfold dotless. destruct (exponent rest) as [[e r2]|] eqn:Ee; [apply exp_outcome; assumption|].
    destruct ds as [|d ds]; [congruence|]. destruct (d =? 48) eqn:E48.
    - apply N.eqb_eq in E48. subst d. apply zero_outcome with (ds := 48 :: ds); auto.
    - eapply plain_outcome; eauto. inversion Hd; subst. unre. lia. }
  destruct rest as [|c r]; [apply D; exact Logic.I|]. destruct (c =? 46) eqn:E.
  - apply N.eqb_eq in E. subst c. apply dot_outcome; auto.
  - apply D. lia.
Qed.

(** ** One token *)

Lemma which_letter c r : letter_ c = true -> which (c :: r) = 2%nat.
Proof. intros H. unfold which. bools. reflexivity. Qed.
Lemma which_quote c r : c = 34 \/ c = 39 -> which (c :: r) = 12%nat.
Proof. intros H. unfold which. bools. reflexivity. Qed.

(** a single-character pattern that is the only one for its first character *)
Lemma single_longest i r a c rest : nth_error patterns i = Some (r, a) -> matches r [c] ->
  (forall l', which (c :: l') = i) -> (forall l', matches r l' -> length l' = 1%nat) -> longest [c] rest a.
Proof.
  intros Hi M W L. split; [exists r; split; [eapply nth_error_In; exact Hi|exact M]|].
  intros r' b l' rest' H1 H2 H3. pose proof (pattern_at _ _ _ H1 H2) as P. pose proof (match_nonempty _ _ _ H1 H2) as N.
  destruct l' as [|c' l']; [congruence|]. cbn [app] in H3. injection H3 as <- H3. rewrite W, Hi in P. injection P as <- <-.
  rewrite (L _ H2). cbn. lia.
Qed.

Lemma punct_outcome c r : is_space c = false -> (c =? 35) = false -> ident_start c = false -> is_digit c = false ->
  (c =? 34) || (c =? 39) = false -> (c =? 46) && match r with d :: _ => is_digit d | [] => false end = false ->
  match punct c with Some k => outcome (c :: r) (Some (k, r)) | None => no_match (c :: r) end.
Proof.
  intros H1 H2 H3 H4 H5 H6.
  assert (S : forall i k p, nth_error patterns i = Some (Set_ p, Gives (punct_act k)) -> p c = true -> (forall l', which (c :: l') = i) ->
    outcome (c :: r) (Some (k, r))).
  { intros i k p Hi Hp W. exists [c], r, (punct_act k). split; [reflexivity|]. split; [|reflexivity].
    apply (single_longest i (Set_ p)); auto; [exists c; auto|]. intros l' (x & -> & _). reflexivity. }
  destruct (N.eq_dec c 46) as [->|N46].
  { cbn [punct]. exists [46], r, (punct_act TDot). split; [reflexivity|]. split; [|reflexivity].
    split; [eexists; split; [pat 13%nat|]; exists 46; split; reflexivity|].
    intros r' b l' rest' K1 K2 K3. pose proof (pattern_at _ _ _ K1 K2) as P. pose proof (match_nonempty _ _ _ K1 K2) as N.
    destruct l' as [|c' l']; [congruence|]. cbn [app] in K3. injection K3 as <- K3. destruct l' as [|c2 l']; [cbn; lia|].
    injection P as <- <-. destruct K2 as (d & tl & E & (x & -> & Hx) & ds & tl2 & -> & [Nn D] & _). cbn [app] in E. injection E as <- E.
    destruct D as [|d0 ds Hd0 D]; [congruence|]. cbn [app] in E. injection E as <- _. cbn [app] in K3. subst r. exfalso. cbn [N.eqb Pos.eqb andb] in H6. unre. lia. }
  destruct (N.eq_dec c 45) as [->|N45]; [apply (S 14%nat _ (any_of "-")); reflexivity|].
  destruct (N.eq_dec c 123) as [->|N123]; [apply (S 15%nat _ (any_of "{")); reflexivity|].
  destruct (N.eq_dec c 125) as [->|N125]; [apply (S 16%nat _ (any_of "}")); reflexivity|].
  destruct (N.eq_dec c 91) as [->|N91]; [apply (S 17%nat _ (any_of "[")); reflexivity|].
  destruct (N.eq_dec c 93) as [->|N93]; [apply (S 18%nat _ (any_of "]")); reflexivity|].
  destruct (N.eq_dec c 60) as [->|N60]; [apply (S 19%nat _ (any_of "<")); reflexivity|].
  destruct (N.eq_dec c 62) as [->|N62]; [apply (S 20%nat _ (any_of ">")); reflexivity|].
  destruct (N.eq_dec c 44) as [->|N44]; [apply (S 21%nat _ (any_of ",")); reflexivity|].
  destruct (N.eq_dec c 58) as [->|N58]; [apply (S 22%nat _ (any_of ":")); reflexivity|].
  destruct (N.eq_dec c 59) as [->|N59]; [apply (S 23%nat _ (any_of ";")); reflexivity|].
  destruct (N.eq_dec c 47) as [->|N47]; [apply (S 24%nat _ (any_of "/")); reflexivity|].
  assert (punct c = None) as ->.
  { clear - N46 N45 N123 N125 N91 N93 N60 N62 N44 N58 N59 N47. destruct c as [|p]; [reflexivity|].
    repeat (destruct p as [p|p|]; try reflexivity); congruence. }
  intros r' b l' rest' K1 K2 K3. pose proof (pattern_at _ _ _ K1 K2) as P. pose proof (match_nonempty _ _ _ K1 K2) as N.
  destruct l' as [|c' l']; [congruence|]. cbn [app] in K3. injection K3 as <- K3.
  assert (which (c :: l') = 24%nat) as W.
  { unfold which. bools. reflexivity. }
  rewrite W in P. injection P as <- <-. destruct K2 as (x & E & Hx). injection E as -> _. unre. lia.
Qed.

Lemma next_outcome c r o : is_space c = false -> (c =? 35) = false -> next_token (c :: r) = Ok o ->
  outcome (c :: r) o \/ o = None /\ no_match (c :: r).
Proof.
  intros H1 H2. unfold next_token. destruct (ident_start c) eqn:E1.
  { destruct (span ident_char (c :: r)) as [a b] eqn:Es. intros [= <-]. left. pose proof (span_length _ _ _ _ Es) as L. pose proof (span_all _ _ _ _ Es) as A.
    pose proof (span_max _ _ _ _ Es) as M. assert (Lc : letter_ c = true) by (unre; lia).
    assert (exists a', a = c :: a' /\ all (fun c => letter_ c || digit c) a') as (a' & -> & A').
    { cbn [span] in Es. replace (ident_char c) with true in Es by (unre; lia). destruct (span ident_char r) as [a' b'] eqn:Er. injection Es as <- <-.
      exists a'. split; [reflexivity|]. pose proof (span_all _ _ _ _ Er) as A2. eapply Forall_impl; [|exact A2]. cbn. intros x Hx. unre. lia. }
    exists (c :: a'), b, ident_act. split; [exact L|]. split; [|reflexivity]. split.
    - eexists. split; [pat 2%nat|]. exists [c], a'. split; [reflexivity|]. split; [exists c; auto|exact A'].
    - intros r' b' l' rest' K1 K2 K3. pose proof (pattern_at _ _ _ K1 K2) as P. pose proof (match_nonempty _ _ _ K1 K2) as N.
      destruct l' as [|c' l']; [congruence|]. cbn [app] in K3. injection K3 as <- K3. rewrite (which_letter _ _ Lc) in P. injection P as <- <-.
      destruct K2 as (? & ? & E & (x & -> & Hx) & Hm). cbn [app] in E. injection E as <- <-.
      assert (~ starts (fun c => letter_ c || digit c) b) as M' by (destruct b; cbn [starts] in *; [auto|unre; lia]).
      pose proof (prefix_le _ _ _ _ _ M' Hm K3). cbn [length]. lia. }
  destruct (is_digit c) eqn:E2.
  { destruct (span is_digit (c :: r)) as [ds b] eqn:Es. intros [= <-]. left. pose proof (span_length _ _ _ _ Es) as ->.
    apply number_outcome; [exact (span_all _ _ _ _ Es)| |exact (span_max _ _ _ _ Es)].
    intros ->. cbn [span] in Es. rewrite E2 in Es. destruct (span is_digit r). discriminate. }
  destruct ((c =? 34) || (c =? 39)) eqn:E3.
  { intros H. left. assert (Q : c = 34 \/ c = 39) by lia. exists [c], r, string_act. split; [reflexivity|]. split.
    - apply (single_longest 12 (Set_ (any_of "'""")));  [reflexivity|exists c; split; [reflexivity|unre; lia]| |].
      + intros l'. apply which_quote. exact Q.
      + intros l' (x & -> & _). reflexivity.
    - destruct (string_loop_total (S (length r)) c r ltac:(lia)) as [o' E]. rewrite E in H. cbn [rbind] in H. destruct o' as [[v b]|]; injection H as <-.
      + exists c, v, b. split; [reflexivity|]. split; [|reflexivity]. eapply literal_sound; eassumption.
      + intros x (q & v & rest' & Eq & L & _). injection Eq as <-. rewrite (literal_complete _ _ _ _ Q L) in E by lia. discriminate. }
  destruct ((c =? 46) && match r with d :: _ => is_digit d | [] => false end) eqn:E4.
  { apply andb_true_iff in E4. destruct E4 as [E4 E5]. apply N.eqb_eq in E4. subst c.
    destruct (span is_digit r) as [fs r1] eqn:Es. destruct (opt_exponent r1) as [e r2] eqn:Ee. intros [= <-]. left.
    pose proof (span_length _ _ _ _ Es) as L. pose proof (span_all _ _ _ _ Es) as Af. pose proof (span_max _ _ _ _ Es) as Mf.
    assert (r1 = e ++ r2 /\ matches (Opt exp_re) e) as [-> He].
    { unfold opt_exponent in Ee. destruct (exponent r1) as [[e' r2']|] eqn:E6; injection Ee as <- <-; [|split; [reflexivity|left; reflexivity]].
      destruct (exponent_sound _ _ _ E6) as (-> & He & _). split; [reflexivity|right; exact He]. }
    assert (Nf : fs <> []). { intros ->. cbn [app] in L. subst r. destruct (e ++ r2); [discriminate|]. apply Mf. exact E5. }
    destruct (opt_suffix_split r2) as (sfx & S1 & S2 & S3 & S4). subst r.
    apply float_outcome with (l := 46 :: fs ++ e ++ sfx) (rest := opt_suffix r2) (sfx := sfx); auto.
    - rewrite S1 at 1. repeat (rewrite <- app_assoc || (progress cbn [app])). reflexivity.
    - split.
      + eexists. split; [pat 11%nat|]. exists [46], (fs ++ e ++ sfx). split; [reflexivity|]. split; [exists 46; split; reflexivity|].
        exists fs, (e ++ sfx). split; [reflexivity|]. split; [split; assumption|]. exists e, sfx. auto.
      + intros r' b' l' rest' K1 K2 K3. assert (E6 : 46 :: fs ++ e ++ r2 = l' ++ rest').
        { rewrite <- K3. rewrite S1 at 1. repeat (rewrite <- app_assoc || (progress cbn [app])). reflexivity. }
        pose proof (pattern_at _ _ _ K1 K2) as P. pose proof (match_nonempty _ _ _ K1 K2) as N.
        destruct l' as [|c' l']; [congruence|]. cbn [app] in E6. injection E6 as <- E6. destruct l' as [|c2 l']; [cbn [length]; lia|].
        injection P as <- <-. destruct K2 as (? & ? & E & (x & -> & Hx) & ds & ? & -> & [Nn D] & e' & f' & -> & He' & Hf'). cbn [app] in E. injection E as <- E.
        rewrite E in E6. repeat (rewrite <- app_assoc in E6 || (progress cbn [app] in E6)).
        pose proof (frac_max ds e' f' rest' D He' Hf') as F. rewrite <- E6, Es in F. cbn [fst snd] in F. unfold tail_len in F. rewrite Ee in F.
        rewrite E. cbn [length]. rewrite !app_length in *. lia.
    - repeat (rewrite <- app_assoc || (progress cbn [app])). reflexivity.
    - change (46 :: fs ++ e) with ([46] ++ fs ++ e). rewrite !has_app, (exp_nof e He), (has_none digit _ fs) by (auto; intros; unre; lia). reflexivity. }
  pose proof (punct_outcome c r H1 H2 E1 E2 E3 E4) as P. destruct (punct c) as [k|]; intros [= <-]; auto.
Qed.

(** ** Blanks and comments *)

Lemma blank_longest s l rest : span is_space s = (l, rest) -> l <> [] -> s = l ++ rest /\ longest l rest Skips.
Proof.
  intros Es Hn. pose proof (span_length _ _ _ _ Es) as ->. pose proof (span_all _ _ _ _ Es) as A. pose proof (span_max _ _ _ _ Es) as M.
  split; [reflexivity|]. assert (A' : all blank l) by (eapply Forall_impl; [|exact A]; cbn; intros x Hx; unre; lia).
  assert (M' : ~ starts blank rest) by (destruct rest; cbn [starts] in *; [auto|unre; lia]).
  split; [eexists; split; [pat 0%nat|]; split; assumption|].
  intros r' b' l' rest' K1 K2 K3. pose proof (pattern_at _ _ _ K1 K2) as P. pose proof (match_nonempty _ _ _ K1 K2) as N.
  destruct l as [|c l]; [congruence|]. destruct l' as [|c' l']; [congruence|].
  assert (which (c' :: l') = 0%nat) as W.
  { cbn [app] in K3. injection K3 as <- _. inversion A'; subst. unfold which. rewrite H1. reflexivity. }
  rewrite W in P. injection P as <- <-. destruct K2 as [_ K2]. exact (prefix_le _ _ _ _ _ M' K2 K3).
Qed.
Lemma lex_spaces_skip l rest : all is_space l -> lex (l ++ rest) = lex rest.
Proof. intros H. induction H; [reflexivity|]. cbn [app]. rewrite lex_space by assumption. exact IHForall. Qed.

Lemma skip_line_split r : exists a nl, r = a ++ nl ++ skip_line r /\ all (fun c => negb (c =? 10)) a /\ matches (Opt (Set_ (N.eqb 10))) nl /\ (nl = [] -> skip_line r = []).
Proof.
  induction r as [|c r IH]; cbn [skip_line]; [exists [], []; repeat split; auto; [constructor|left; reflexivity]|].
  destruct (c =? 10) eqn:E.
  - exists [], [c]. split; [reflexivity|]. split; [constructor|]. split; [right; exists c; split; [reflexivity|rewrite N.eqb_sym; exact E]|discriminate].
  - destruct IH as (a & nl & E1 & E2 & E3 & E4). exists (c :: a), nl. split; [cbn [app]; f_equal; exact E1|]. split; [constructor; [rewrite E; reflexivity|exact E2]|]. auto.
Qed.
Lemma comment_longest r : exists l, 35 :: r = l ++ skip_line r /\ longest l (skip_line r) Skips.
Proof.
  destruct (skip_line_split r) as (a & nl & E & A & Hn & Hz). exists (35 :: a ++ nl). split; [cbn [app]; rewrite <- app_assoc; f_equal; exact E|].
  split.
  - eexists. split; [pat 1%nat|]. exists [35], (a ++ nl). split; [reflexivity|]. split; [exists 35; split; reflexivity|]. exists a, nl. auto.
  - intros r' b' l' rest' K1 K2 K3. pose proof (pattern_at _ _ _ K1 K2) as P. pose proof (match_nonempty _ _ _ K1 K2) as N.
    destruct l' as [|c' l']; [congruence|]. cbn [app] in K3. injection K3 as <- K3. injection P as <- <-.
    destruct K2 as (? & ? & E1 & (x & -> & Hx) & b & nl' & -> & Hb & Hnl'). cbn [app] in E1. injection E1 as <- ->.
    rewrite <- !app_assoc in K3. cbn [length]. rewrite !app_length.
    assert (length nl' <= 1)%nat as L1 by (destruct Hnl' as [->|(? & -> & _)]; cbn; lia).
    destruct Hn as [->|(x & -> & Hx')].
    + specialize (Hz eq_refl). rewrite Hz in K3. cbn [app] in K3. rewrite app_nil_r in K3. apply (f_equal (@length _)) in K3. rewrite !app_length in K3. cbn [length]. lia.
    + cbn [length]. assert (~ starts (fun c => negb (c =? 10)) (x :: skip_line r)) as S by (cbn [starts]; lia).
      pose proof (prefix_le _ a (x :: skip_line r) b (nl' ++ rest') S Hb K3). lia.
Qed.
Lemma lex_comment r : lex (35 :: r) = lex (skip_line r).
Proof.
  destruct (lex_total (skip_line r)) as [ks E]. rewrite E. unfold lex in *. cbn [length lex_loop is_space in_range N.leb N.compare Pos.compare Pos.compare_cont andb orb N.eqb Pos.eqb].
  apply lex_loop_more with (n := length (skip_line r)); [exact E|apply skip_line_le].
Qed.

(** ** The whole text *)

Lemma outcome_shorter s k rest' o : outcome s o -> o = Some (k, rest') -> next_token s = Ok o -> (length rest' < length s)%nat.
Proof. intros _ -> H. destruct (next_token_total s) as (o & E & L). rewrite E in H. injection H as ->. eapply L. reflexivity. Qed.

Lemma lex_lexed : forall n s ts, (length s <= n)%nat -> lex s = Ok ts -> lexed s ts.
Proof.
  induction n as [|n IH]; intros s ts Hn H.
  { destruct s; [|cbn in Hn; lia]. cbn in H. injection H as <-. constructor. }
  destruct s as [|c r]; [cbn in H; injection H as <-; constructor|]. cbn [length] in Hn.
  destruct (is_space c) eqn:Esp.
  { destruct (span is_space (c :: r)) as [l rest] eqn:Es.
    assert (Nl : l <> []) by (cbn [span] in Es; rewrite Esp in Es; destruct (span is_space r); injection Es as <- _; discriminate).
    destruct (blank_longest _ _ _ Es Nl) as [E L]. pose proof (span_all _ _ _ _ Es) as A. rewrite E. apply lx_skip; [exact L|].
    apply IH.
    - apply (f_equal (@length _)) in E. rewrite app_length in E. cbn [length] in E. destruct l; [congruence|]. cbn [length] in E. lia.
    - rewrite E, lex_spaces_skip in H by exact A. exact H. }
  destruct (c =? 35) eqn:Ehash.
  { apply N.eqb_eq in Ehash. subst c. destruct (comment_longest r) as (l & E & L). rewrite E. apply lx_skip; [exact L|]. apply IH.
    - pose proof (skip_line_le r). lia.
    - rewrite <- lex_comment. exact H. }
  destruct (next_token_total (c :: r)) as (o & Eo & Lo). pose proof (next_outcome c r o Esp Ehash Eo) as Out.
  destruct o as [[k rest']|].
  - specialize (Lo _ _ eq_refl). cbn [length] in Lo. destruct (lex_total rest') as [ks Ek].
    assert (ts = k :: ks) as ->.
    { assert (lex (c :: r) = Ok (k :: ks)) as E by (apply lex_token with (r := rest'); [split; assumption|exact Eo|exact Ek]). congruence. }
    destruct Out as [(l & rest & act & E & L & A)|[? _]]; [|discriminate]. rewrite E. eapply lx_token; [exact L|exact A|]. apply IH; [lia|exact Ek].
  - assert (ts = [TBad]) as ->.
    { unfold lex in H. cbn [length lex_loop] in H. rewrite Esp, Ehash, Eo in H. cbn [rbind] in H. congruence. }
    destruct Out as [(l & rest & act & E & L & A)|[_ N]].
    + rewrite E. eapply lx_error; eassumption.
    + apply lx_bad; [discriminate|exact N].
Qed.

Lemma float_fun l rest x y : float_act l rest x -> float_act l rest y -> x = y.
Proof.
  intros (b1 & s1 & E1 & N1 & S1 & ->) (b2 & s2 & E2 & N2 & S2 & ->).
  assert (b1 = b2) as ->; [|reflexivity]. rewrite E1 in E2. clear E1.
  assert (T : forall b b' c, b ++ [] = b' ++ [c] -> any_of "fF" c = true -> ~ starts (any_of "fF") (rev b) -> False).
  { intros b b' c E Hc N. rewrite app_nil_r in E. subst b. rewrite rev_app_distr in N. apply N. exact Hc. }
  destruct S1 as [->|[->| ->]], S2 as [->|[->| ->]].
  - apply app_inv_tail in E2. exact E2.
  - exfalso. eapply T; [exact E2|reflexivity|exact N1].
  - exfalso. eapply T; [exact E2|reflexivity|exact N1].
  - exfalso. eapply T; [exact (eq_sym E2)|reflexivity|exact N2].
  - apply app_inv_tail in E2. exact E2.
  - apply app_inj_tail in E2. exact (proj1 E2).
  - exfalso. eapply T; [exact (eq_sym E2)|reflexivity|exact N2].
  - apply app_inj_tail in E2. exact (proj1 E2).
  - apply app_inv_tail in E2. exact E2.
Qed.
Lemma act_fun a act l rest x y : longest l rest a -> a = Gives act -> act l rest x -> act l rest y -> x = y.
Proof.
  intros [(r & Hin & M) _] -> H1 H2. unfold patterns in Hin.
  repeat (destruct Hin as [Hin|Hin]; [first [discriminate Hin | injection Hin as <- <-]|]); [..|destruct Hin].
  all: try exact (eq_trans (proj2 H1) (eq_sym (proj2 H2))).
  all: try (unfold ident_act, punct_act in *; rewrite H1, H2; reflexivity).
  all: try exact (float_fun _ _ _ _ H1 H2).
  destruct H1 as (q1 & v1 & r1 & E1 & L1 & ->), H2 as (q2 & v2 & r2 & E2 & L2 & ->). rewrite E1 in E2. injection E2 as <-.
  destruct M as (x & E & Hx). rewrite E1 in E. injection E as <-. assert (q1 = 34 \/ q1 = 39) as Q by (unre; lia).
  destruct (literal_fun _ _ _ _ _ _ Q L1 L2) as [-> ->]. reflexivity.
Qed.
Lemma longest_no l rest a s : longest l rest a -> l ++ rest = s -> no_match s -> False.
Proof. intros [(r & Hin & M) _] <- N. eapply N; eauto. Qed.
Lemma longest_cons l rest a : longest l rest a -> l ++ rest = [] -> False.
Proof. intros [(r & Hin & M) _] E. apply app_eq_nil in E. destruct E as [-> _]. exact (match_nonempty _ _ _ Hin M eq_refl). Qed.

Lemma lexed_fun s ts1 : lexed s ts1 -> forall ts2, lexed s ts2 -> ts1 = ts2.
Proof.
  induction 1 as [|l rest ts L H IH|l rest act k rest' ts L A H IH|l rest act L A|s Hs N]; intros ts2 H2.
  - inversion H2; subst; auto; exfalso; try (eapply longest_cons; eassumption). congruence.
  - inversion H2; subst.
    + exfalso. eapply longest_cons; eauto.
    + destruct (longest_fun _ _ _ _ _ _ L H1 (eq_sym H0)) as (-> & -> & _). auto.
    + destruct (longest_fun _ _ _ _ _ _ L H1 (eq_sym H0)) as (_ & _ & ?). discriminate.
    + destruct (longest_fun _ _ _ _ _ _ L H1 (eq_sym H0)) as (_ & _ & ?). discriminate.
    + exfalso. eapply longest_no; eauto.
  - inversion H2; subst.
    + exfalso. eapply longest_cons; eauto.
    + destruct (longest_fun _ _ _ _ _ _ L H1 (eq_sym H0)) as (_ & _ & ?). discriminate.
    + destruct (longest_fun _ _ _ _ _ _ L H1 (eq_sym H0)) as (-> & -> & E). injection E as <-.
      pose proof (act_fun _ _ _ _ _ _ L eq_refl A H3) as E. injection E as <- <-. f_equal. auto.
    + destruct (longest_fun _ _ _ _ _ _ L H1 (eq_sym H0)) as (-> & -> & E). injection E as <-. exfalso. eapply H3; eassumption.
    + exfalso. eapply longest_no; eauto.
  - inversion H2; subst.
    + exfalso. eapply longest_cons; eauto.
    + destruct (longest_fun _ _ _ _ _ _ L H0 (eq_sym H)) as (_ & _ & ?). discriminate.
    + destruct (longest_fun _ _ _ _ _ _ L H0 (eq_sym H)) as (-> & -> & E). injection E as <-. exfalso. eapply A; eassumption.
    + reflexivity.
    + reflexivity.
  - inversion H2; subst; auto; exfalso; try congruence; eapply longest_no; eauto.
Qed.

Lemma lex_spec s ts : lex s = Ok ts <-> lexed s ts.
Proof.
  split; [apply lex_lexed with (n := length s); lia|]. intros H. destruct (lex_total s) as [ks E]. rewrite E. f_equal.
  eapply lexed_fun; [|exact H]. exact (lex_lexed (length s) s ks (le_n _) E).
Qed.
