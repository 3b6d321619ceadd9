(** Numbers, base64 and timestamps in JSON: proofs for C44, C45 and C46. *)
From Coq Require Import String.
From Verif Require Import Base BaseProofs Wire Value Descr Float TextFormat Json.
Open Scope list_scope.
Open Scope N_scope.

(** ** Base64: specification *)

(** the [n] low bits of a number, highest first *)
Definition bits (n : nat) (x : N) : list bool := map (fun i => N.testbit x (N.of_nat i)) (rev (seq 0 n)).
Definition b64_alphabet (url : bool) : str :=
  s2b "ABCDEFGHIJKLMNOPQRSTUVWXYZabcdefghijklmnopqrstuvwxyz0123456789" ++ (if url then s2b "-_" else s2b "+/").
(** RFC 4648: the bits of the bytes, with fewer than six zeros added, in groups
    of six; with [pad], equals signs up to a multiple of four characters *)
Definition b64_text (url pad : bool) (s text : bytes) : Prop :=
  exists syms fill p,
    Forall (fun v => v < 64) syms /\ (fill < 6)%nat /\
    flat_map (bits 6) syms = flat_map (bits 8) s ++ repeat false fill /\
    text = map (fun v => nth (N.to_nat v) (b64_alphabet url) 0) syms ++ repeat 61 p /\
    if pad then (p < 4)%nat /\ (length text mod 4 = 0)%nat else p = 0%nat.

(** ** Base64: the code's encoder makes these texts *)
Definition bval (l : list bool) : N := fold_left (fun a (b : bool) => 2 * a + if b then 1 else 0) l 0.
Definition below (n : nat) : list N := map N.of_nat (seq 0 n).
Lemma below_in n x : x < N.of_nat n -> In x (below n).
Proof. intros H. apply in_map_iff. exists (N.to_nat x). split; [lia|]. apply in_seq. lia. Qed.
Lemma check1 (P : N -> bool) n : forallb P (below n) = true -> forall x, x < N.of_nat n -> P x = true.
Proof. intros H x Hx. rewrite forallb_forall in H. apply H, below_in, Hx. Qed.
Lemma check2 (P : N -> N -> bool) n : forallb (fun x => forallb (P x) (below n)) (below n) = true ->
  forall x y, x < N.of_nat n -> y < N.of_nat n -> P x y = true.
Proof. intros H x y Hx Hy. refine (check1 (P x) n _ y Hy). exact (check1 (fun x => forallb (P x) (below n)) n H x Hx). Qed.

Lemma bval_bits v : v < 64 -> bval (bits 6 v) = v.
Proof.
  intros H. apply N.eqb_eq. refine (check1 (fun v => bval (bits 6 v) =? v) 64 _ v H). vm_compute. reflexivity.
Qed.
Lemma char_alphabet url v : v < 64 -> nth (N.to_nat v) (b64_alphabet url) 0 = b64_char url v.
Proof.
  intros H. apply N.eqb_eq. refine (check1 (fun v => nth (N.to_nat v) (b64_alphabet url) 0 =? b64_char url v) 64 _ v H).
  destruct url; vm_compute; reflexivity.
Qed.
Lemma sym_a a : a < 256 -> bval (firstn 6 (bits 8 a)) = a / 4.
Proof. intros H. apply N.eqb_eq. refine (check1 (fun a => bval (firstn 6 (bits 8 a)) =? a / 4) 256 _ a H). vm_compute. reflexivity. Qed.
Lemma sym_b a b : a < 256 -> b < 256 -> bval (skipn 6 (bits 8 a) ++ firstn 4 (bits 8 b)) = a mod 4 * 16 + b / 16.
Proof.
  intros H H'. apply N.eqb_eq.
  refine (check2 (fun a b => bval (skipn 6 (bits 8 a) ++ firstn 4 (bits 8 b)) =? a mod 4 * 16 + b / 16) 256 _ a b H H').
  vm_compute. reflexivity.
Qed.
Lemma sym_c b c : b < 256 -> c < 256 -> bval (skipn 4 (bits 8 b) ++ firstn 2 (bits 8 c)) = b mod 16 * 4 + c / 64.
Proof.
  intros H H'. apply N.eqb_eq.
  refine (check2 (fun b c => bval (skipn 4 (bits 8 b) ++ firstn 2 (bits 8 c)) =? b mod 16 * 4 + c / 64) 256 _ b c H H').
  vm_compute. reflexivity.
Qed.
Lemma sym_d c : c < 256 -> bval (skipn 2 (bits 8 c)) = c mod 64.
Proof. intros H. apply N.eqb_eq. refine (check1 (fun a => bval (skipn 2 (bits 8 a)) =? a mod 64) 256 _ c H). vm_compute. reflexivity. Qed.

Lemma bits_length n x : length (bits n x) = n.
Proof. unfold bits. now rewrite map_length, rev_length, seq_length. Qed.
Lemma flat_bits_length n l : length (flat_map (bits n) l) = (n * length l)%nat.
Proof. induction l as [|a l IH]; cbn [flat_map]; [cbn; lia|]. rewrite app_length, IH, bits_length. cbn [length]. lia. Qed.
Lemma bits_6 v : bits 6 v = [N.testbit v 5; N.testbit v 4; N.testbit v 3; N.testbit v 2; N.testbit v 1; N.testbit v 0].
Proof. reflexivity. Qed.
Lemma bits_8 v : bits 8 v = [N.testbit v 7; N.testbit v 6; N.testbit v 5; N.testbit v 4; N.testbit v 3; N.testbit v 2; N.testbit v 1; N.testbit v 0].
Proof. reflexivity. Qed.

Lemma spec_quad p q r x rest a b c more fill :
  flat_map (bits 6) (p :: q :: r :: x :: rest) = flat_map (bits 8) (a :: b :: c :: more) ++ repeat false fill ->
  bits 6 p = firstn 6 (bits 8 a) /\ bits 6 q = skipn 6 (bits 8 a) ++ firstn 4 (bits 8 b) /\
  bits 6 r = skipn 4 (bits 8 b) ++ firstn 2 (bits 8 c) /\ bits 6 x = skipn 2 (bits 8 c) /\
  flat_map (bits 6) rest = flat_map (bits 8) more ++ repeat false fill.
Proof.
  cbn [flat_map]. rewrite !bits_6, !bits_8. cbn [app firstn skipn]. intros H.
  injection H as ? ? ? ? ? ? ? ? ? ? ? ? ? ? ? ? ? ? ? ? ? ? ? ? ?.
  repeat split; congruence.
Qed.

Definition spec_syms (s : bytes) : list N :=
  (fix go (s : bytes) : list N :=
     match s with
     | [] => []
     | [a] => [a / 4; a mod 4 * 16]
     | [a; b] => [a / 4; a mod 4 * 16 + b / 16; b mod 16 * 4]
     | a :: b :: c :: r => a / 4 :: a mod 4 * 16 + b / 16 :: b mod 16 * 4 + c / 64 :: c mod 64 :: go r
     end) s.
Lemma spec_syms_cons a b c r :
  spec_syms (a :: b :: c :: r) = a / 4 :: a mod 4 * 16 + b / 16 :: b mod 16 * 4 + c / 64 :: c mod 64 :: spec_syms r.
Proof. reflexivity. Qed.
Lemma val_eq v l : v < 64 -> bits 6 v = l -> v = bval l.
Proof. intros H <-. symmetry. now apply bval_bits. Qed.
Lemma spec_unique n : forall s syms fill, (length s <= n)%nat -> bytes_ok s -> Forall (fun v => v < 64) syms -> (fill < 6)%nat ->
  flat_map (bits 6) syms = flat_map (bits 8) s ++ repeat false fill -> syms = spec_syms s.
Proof.
  induction n as [|n IH]; intros s syms fill Hl Hs Hv Hf H;
    pose proof (f_equal (@length _) H) as HL; rewrite app_length, !flat_bits_length, repeat_length in HL.
  - destruct s; [|cbn in Hl; lia]. cbn [length] in HL. destruct syms; [reflexivity|cbn [length] in HL; lia].
  - destruct s as [|a [|b [|c r]]]; cbn [length] in HL.
    + destruct syms; [reflexivity|cbn [length] in HL; lia].
    + destruct syms as [|p [|q [|x rest]]]; cbn [length] in HL; try lia.
      assert (fill = 4%nat) by lia. subst fill.
      inversion Hs as [|? ? Ha _]; subst. inversion Hv as [|? ? Hp Hv']; subst. inversion Hv' as [|? ? Hq _]; subst.
      cbn [flat_map] in H. rewrite !bits_6, !bits_8 in H. cbn [app repeat] in H.
      injection H as ? ? ? ? ? ? ? ? ? ? ? ?.
      assert (E1 : p = bval (firstn 6 (bits 8 a))) by (apply val_eq; [assumption|rewrite bits_6, bits_8; cbn [firstn]; congruence]).
      assert (E2 : q = bval (skipn 6 (bits 8 a) ++ firstn 4 (bits 8 0)))
        by (apply val_eq; [assumption|rewrite bits_6, !bits_8; cbn [firstn skipn app]; cbn [N.testbit]; congruence]).
      rewrite sym_a in E1 by assumption. rewrite sym_b in E2 by (assumption || lia).
      subst p q. cbn. f_equal. f_equal. lia.
    + destruct syms as [|p [|q [|x [|y rest]]]]; cbn [length] in HL; try lia.
      assert (fill = 2%nat) by lia. subst fill.
      inversion Hs as [|? ? Ha Hs']; subst. inversion Hs' as [|? ? Hb _]; subst.
      inversion Hv as [|? ? Hp Hv']; subst. inversion Hv' as [|? ? Hq Hv'']; subst. inversion Hv'' as [|? ? Hx _]; subst.
      cbn [flat_map] in H. rewrite !bits_6, !bits_8 in H. cbn [app repeat] in H.
      injection H as ? ? ? ? ? ? ? ? ? ? ? ? ? ? ? ? ? ?.
      assert (E1 : p = bval (firstn 6 (bits 8 a))) by (apply val_eq; [assumption|rewrite bits_6, bits_8; cbn [firstn]; congruence]).
      assert (E2 : q = bval (skipn 6 (bits 8 a) ++ firstn 4 (bits 8 b)))
        by (apply val_eq; [assumption|rewrite bits_6, !bits_8; cbn [firstn skipn app]; congruence]).
      assert (E3 : x = bval (skipn 4 (bits 8 b) ++ firstn 2 (bits 8 0)))
        by (apply val_eq; [assumption|rewrite bits_6, !bits_8; cbn [firstn skipn app]; cbn [N.testbit]; congruence]).
      rewrite sym_a in E1 by assumption. rewrite sym_b in E2 by assumption. rewrite sym_c in E3 by (assumption || lia).
      subst p q x. cbn. do 3 f_equal. lia.
    + destruct syms as [|p [|q [|x [|y rest]]]]; cbn [length] in HL; try lia.
      inversion Hs as [|? ? Ha Hs']; subst. inversion Hs' as [|? ? Hb Hs'']; subst. inversion Hs'' as [|? ? Hc Hr]; subst.
      inversion Hv as [|? ? Hp Hv1]; subst. inversion Hv1 as [|? ? Hq Hv2]; subst. inversion Hv2 as [|? ? Hx Hv3]; subst.
      inversion Hv3 as [|? ? Hy Hrest]; subst.
      apply spec_quad in H. destruct H as (E1 & E2 & E3 & E4 & E5).
      apply val_eq in E1; [|assumption]. apply val_eq in E2; [|assumption]. apply val_eq in E3; [|assumption]. apply val_eq in E4; [|assumption].
      rewrite sym_a in E1 by assumption. rewrite sym_b in E2 by assumption. rewrite sym_c in E3 by assumption. rewrite sym_d in E4 by assumption.
      rewrite spec_syms_cons. subst p q x y. do 4 f_equal.
      eapply IH; [|exact Hr|exact Hrest|exact Hf|exact E5]. cbn in Hl. lia.
Qed.

Lemma mod4_add n : ((4 + n) mod 4 = n mod 4)%nat.
Proof. rewrite <- Nat.add_mod_idemp_l by lia. reflexivity. Qed.
Lemma syms_lt s : bytes_ok s -> Forall (fun v => v < 64) (spec_syms s).
Proof.
  assert (G : forall n s, (length s <= n)%nat -> bytes_ok s -> Forall (fun v => v < 64) (spec_syms s)).
  { clear s. induction n as [|n IH]; intros s Hl Hs.
    - destruct s; [constructor|cbn in Hl; lia].
    - assert (D4 : forall a, a < 256 -> a / 4 < 64) by (intros; apply N.div_lt_upper_bound; lia).
      assert (M4 : forall a, a mod 4 < 4) by (intros; apply N.mod_lt; lia).
      assert (D16 : forall a, a < 256 -> a / 16 < 16) by (intros; apply N.div_lt_upper_bound; lia).
      assert (M16 : forall a, a mod 16 < 16) by (intros; apply N.mod_lt; lia).
      assert (D64 : forall a, a < 256 -> a / 64 < 4) by (intros; apply N.div_lt_upper_bound; lia).
      assert (M64 : forall a, a mod 64 < 64) by (intros; apply N.mod_lt; lia).
      destruct s as [|a [|b [|c r]]]; [constructor| | |].
      + inversion Hs; subst. repeat constructor; [now apply D4|specialize (M4 a); lia].
      + inversion Hs as [|? ? Ha Hs']; subst. inversion Hs' as [|? ? Hb _]; subst.
        repeat constructor; [now apply D4|specialize (M4 a); specialize (D16 b Hb); lia|specialize (M16 b); lia].
      + inversion Hs as [|? ? Ha Hs']; subst. inversion Hs' as [|? ? Hb Hs'']; subst. inversion Hs'' as [|? ? Hc Hr]; subst.
        rewrite spec_syms_cons.
        repeat (apply Forall_cons); [now apply D4|specialize (M4 a); specialize (D16 b Hb); lia|specialize (M16 b); specialize (D64 c Hc); lia|apply M64|].
        apply IH; [cbn in Hl; lia|assumption]. }
  intros H. exact (G (length s) s (Nat.le_refl _) H).
Qed.
Lemma b64_encode_cons url pad a b c r : b64_encode url pad (a :: b :: c :: r) = b64_quad url a b c ++ b64_encode url pad r.
Proof. reflexivity. Qed.
Lemma spec_encode url pad s text : bytes_ok s -> b64_text url pad s text -> text = b64_encode url pad s.
Proof.
  intros Hs (syms & fill & p & Hv & Hf & Hb & -> & Hp).
  apply (spec_unique (length s)) in Hb; try assumption; [|apply Nat.le_refl]. subst syms.
  rewrite (map_ext_in _ (b64_char url)); [|intros v Hi; rewrite Forall_forall in Hv; now apply char_alphabet, Hv].
  rewrite app_length, map_length, repeat_length in Hp.
  clear Hf Hv fill.
  assert (G : forall n s, (length s <= n)%nat -> bytes_ok s ->
    (if pad then (p < 4)%nat /\ ((length (spec_syms s) + p) mod 4 = 0)%nat else p = 0%nat) ->
    map (b64_char url) (spec_syms s) ++ repeat 61 p = b64_encode url pad s).
  { clear s Hs Hp. induction n as [|n IH]; intros s Hl Hs Hp.
    - destruct s; [|cbn in Hl; lia]. cbn in *. destruct pad; [|subst; reflexivity].
      destruct Hp as [A B]. destruct p as [|[|[|[|p]]]]; try discriminate B; [reflexivity|lia].
    - destruct s as [|a [|b [|c r]]].
      + cbn in *. destruct pad; [|subst; reflexivity].
        destruct Hp as [A B]. destruct p as [|[|[|[|p]]]]; try discriminate B; [reflexivity|lia].
      + cbn [spec_syms map length b64_encode b64_quad firstn app] in *.
        assert (E : p = (if pad then 2 else 0)%nat).
        { destruct pad; [|exact Hp]. destruct Hp as [A B]. destruct p as [|[|[|[|p]]]]; try discriminate B; [reflexivity|lia]. }
        subst p. replace (0 / 16) with 0 by reflexivity. rewrite N.add_0_r. destruct pad; reflexivity.
      + cbn [spec_syms map length b64_encode b64_quad firstn app] in *.
        assert (E : p = (if pad then 1 else 0)%nat).
        { destruct pad; [|exact Hp]. destruct Hp as [A B]. destruct p as [|[|[|[|p]]]]; try discriminate B; [reflexivity|lia]. }
        subst p. replace (0 / 64) with 0 by reflexivity. rewrite N.add_0_r. destruct pad; reflexivity.
      + rewrite spec_syms_cons, b64_encode_cons in *.
        cbn [map length app b64_quad] in *. do 4 f_equal. apply IH; [cbn in Hl; lia| |].
        * inversion Hs as [|? ? ? Hs']; subst. inversion Hs' as [|? ? ? Hs'']; subst. now inversion Hs''.
        * destruct pad; [|exact Hp]. destruct Hp as [A B]. split; [exact A|].
          cbn [length Nat.add] in B. change (S (S (S (S ?x)))) with (4 + x)%nat in B. rewrite mod4_add in B. exact B. }
  exact (G (length s) s (Nat.le_refl _) Hs Hp).
Qed.

(** and its own output is such a text *)
Lemma syms_bits s : bytes_ok s -> exists fill, (fill < 6)%nat /\ flat_map (bits 6) (spec_syms s) = flat_map (bits 8) s ++ repeat false fill.
Proof.
  assert (A1 : forall a, a < 256 -> bits 6 (a / 4) = firstn 6 (bits 8 a)).
  { intros a H. assert (Q := check1 (fun a => if list_eq_dec Bool.bool_dec (bits 6 (a / 4)) (firstn 6 (bits 8 a)) then true else false) 256 ltac:(vm_compute; reflexivity) a H).
    cbv beta in Q. destruct list_eq_dec; [assumption|discriminate]. }
  assert (A2 : forall a b, a < 256 -> b < 256 -> bits 6 (a mod 4 * 16 + b / 16) = skipn 6 (bits 8 a) ++ firstn 4 (bits 8 b)).
  { intros a b H H'. assert (Q := check2 (fun a b => if list_eq_dec Bool.bool_dec (bits 6 (a mod 4 * 16 + b / 16)) (skipn 6 (bits 8 a) ++ firstn 4 (bits 8 b)) then true else false) 256 ltac:(vm_compute; reflexivity) a b H H').
    cbv beta in Q. destruct list_eq_dec; [assumption|discriminate]. }
  assert (A3 : forall a b, a < 256 -> b < 256 -> bits 6 (a mod 16 * 4 + b / 64) = skipn 4 (bits 8 a) ++ firstn 2 (bits 8 b)).
  { intros a b H H'. assert (Q := check2 (fun a b => if list_eq_dec Bool.bool_dec (bits 6 (a mod 16 * 4 + b / 64)) (skipn 4 (bits 8 a) ++ firstn 2 (bits 8 b)) then true else false) 256 ltac:(vm_compute; reflexivity) a b H H').
    cbv beta in Q. destruct list_eq_dec; [assumption|discriminate]. }
  assert (A4 : forall a, a < 256 -> bits 6 (a mod 64) = skipn 2 (bits 8 a)).
  { intros a H. assert (Q := check1 (fun a => if list_eq_dec Bool.bool_dec (bits 6 (a mod 64)) (skipn 2 (bits 8 a)) then true else false) 256 ltac:(vm_compute; reflexivity) a H).
    cbv beta in Q. destruct list_eq_dec; [assumption|discriminate]. }
  assert (G : forall n s, (length s <= n)%nat -> bytes_ok s -> exists fill, (fill < 6)%nat /\ flat_map (bits 6) (spec_syms s) = flat_map (bits 8) s ++ repeat false fill).
  { clear s. induction n as [|n IH]; intros s Hl Hs.
    - destruct s; [|cbn in Hl; lia]. exists 0%nat. split; [lia|reflexivity].
    - destruct s as [|a [|b [|c r]]].
      + exists 0%nat. split; [lia|reflexivity].
      + inversion Hs as [|? ? Ha _]; subst. exists 4%nat. split; [lia|].
        cbn [spec_syms flat_map]. rewrite A1 by assumption. rewrite <- (N.add_0_r (a mod 4 * 16)). change 0 with (0 / 16) at 1.
        rewrite A2 by (assumption || lia). rewrite !bits_8. reflexivity.
      + inversion Hs as [|? ? Ha Hs']; subst. inversion Hs' as [|? ? Hb _]; subst. exists 2%nat. split; [lia|].
        cbn [spec_syms flat_map]. rewrite A1, A2 by assumption. rewrite <- (N.add_0_r (b mod 16 * 4)). change 0 with (0 / 64) at 1.
        rewrite A3 by (assumption || lia). rewrite !bits_8. reflexivity.
      + inversion Hs as [|? ? Ha Hs']; subst. inversion Hs' as [|? ? Hb Hs'']; subst. inversion Hs'' as [|? ? Hc Hr]; subst.
        destruct (IH r) as (fill & Hf & E); [cbn in Hl; lia|assumption|].
        exists fill. split; [exact Hf|]. rewrite spec_syms_cons. cbn [flat_map]. rewrite E, A1, A2, A3, A4 by assumption.
        rewrite !bits_8. reflexivity. }
  intros H. exact (G (length s) s (Nat.le_refl _) H).
Qed.
Lemma encode_spec url pad s : bytes_ok s -> b64_text url pad s (b64_encode url pad s).
Proof.
  intros Hs. destruct (syms_bits s Hs) as (fill & Hf & E). pose proof (syms_lt s Hs) as Hv.
  set (p := if pad then ((4 - length (spec_syms s) mod 4) mod 4)%nat else 0%nat).
  assert (Hp : if pad then (p < 4)%nat /\ ((length (spec_syms s) + p) mod 4 = 0)%nat else p = 0%nat).
  { subst p. destruct pad; [|reflexivity]. split; [apply Nat.mod_upper_bound; lia|].
    rewrite Nat.add_mod_idemp_r by lia. rewrite <- Nat.add_mod_idemp_l by lia.
    pose proof (Nat.mod_upper_bound (length (spec_syms s)) 4 ltac:(lia)) as Q.
    replace (length (spec_syms s) mod 4 + (4 - length (spec_syms s) mod 4))%nat with 4%nat by lia. reflexivity. }
  assert (T : b64_text url pad s (map (fun v => nth (N.to_nat v) (b64_alphabet url) 0) (spec_syms s) ++ repeat 61 p)).
  { exists (spec_syms s), fill, p. repeat split; try assumption.
    rewrite app_length, map_length, repeat_length. exact Hp. }
  pose proof (spec_encode url pad s _ Hs T) as Q. rewrite <- Q. exact T.
Qed.

(** ** Base64: reading *)
Lemma sym_char url v : v < 64 -> b64_sym url (b64_char url v) = inr v.
Proof.
  intros H. assert (Q := check1 (fun v => match b64_sym url (b64_char url v) with inr x => x =? v | inl _ => false end) 64
    ltac:(destruct url; vm_compute; reflexivity) v H). cbv beta in Q.
  destruct (b64_sym url (b64_char url v)); [discriminate|]. apply N.eqb_eq in Q. now subst.
Qed.
Lemma char_not_pad url v : v < 64 -> (b64_char url v =? 61) = false.
Proof.
  intros H. assert (Q := check1 (fun v => negb (b64_char url v =? 61)) 64
    ltac:(destruct url; vm_compute; reflexivity) v H). cbv beta in Q. now apply negb_true_iff in Q.
Qed.
Lemma sym_url v : v < 64 -> b64_sym false (b64_char true v) = inr v \/
  b64_sym false (b64_char true v) = inl (BadByte 45) \/ b64_sym false (b64_char true v) = inl (BadByte 95).
Proof.
  intros H. assert (Q := check1 (fun v => match b64_sym false (b64_char true v) with inr x => x =? v | inl (BadByte c) => (c =? 45) || (c =? 95) | inl BadLength => false end) 64
    ltac:(vm_compute; reflexivity) v H). cbv beta in Q.
  destruct (b64_sym false (b64_char true v)) as [[c|]|x]; [|discriminate|apply N.eqb_eq in Q; subst; now left].
  apply orb_prop in Q. destruct Q as [Q|Q]; apply N.eqb_eq in Q; subst; auto.
Qed.

Lemma bytes1_back a : a < 256 -> bytes1 (a / 4) (a mod 4 * 16) = [a].
Proof.
  intros H. assert (Q := check1 (fun a => match bytes1 (a / 4) (a mod 4 * 16) with [x] => x =? a | _ => false end) 256 ltac:(vm_compute; reflexivity) a H).
  cbv beta in Q. unfold bytes1 in *. apply N.eqb_eq in Q. now rewrite Q.
Qed.
Lemma first_back a b : a < 256 -> b < 256 -> a / 4 * 4 + (a mod 4 * 16 + b / 16) / 16 = a.
Proof.
  intros H H'. apply N.eqb_eq.
  refine (check2 (fun a b => a / 4 * 4 + (a mod 4 * 16 + b / 16) / 16 =? a) 256 _ a b H H'). vm_compute. reflexivity.
Qed.
Lemma low4 a b : a < 256 -> b < 256 -> (a mod 4 * 16 + b / 16) mod 16 = b / 16.
Proof.
  intros H H'. apply N.eqb_eq.
  refine (check2 (fun a b => (a mod 4 * 16 + b / 16) mod 16 =? b / 16) 256 _ a b H H'). vm_compute. reflexivity.
Qed.
Lemma second_back b c : b < 256 -> c < 256 -> b / 16 * 16 + (b mod 16 * 4 + c / 64) / 4 = b.
Proof.
  intros H H'. apply N.eqb_eq.
  refine (check2 (fun b c => b / 16 * 16 + (b mod 16 * 4 + c / 64) / 4 =? b) 256 _ b c H H'). vm_compute. reflexivity.
Qed.
Lemma third_back b c : b < 256 -> c < 256 -> (b mod 16 * 4 + c / 64) mod 4 * 64 + c mod 64 = c.
Proof.
  intros H H'. apply N.eqb_eq.
  refine (check2 (fun b c => (b mod 16 * 4 + c / 64) mod 4 * 64 + c mod 64 =? c) 256 _ b c H H'). vm_compute. reflexivity.
Qed.
Lemma bytes2_back a b : a < 256 -> b < 256 -> bytes2 (a / 4) (a mod 4 * 16 + b / 16) (b mod 16 * 4) = [a; b].
Proof.
  intros Ha Hb. unfold bytes2. rewrite first_back, low4 by assumption.
  pose proof (second_back b 0 Hb ltac:(lia)) as Q. change (0 / 64) with 0 in Q. rewrite N.add_0_r in Q. now rewrite Q.
Qed.
Lemma bytes3_back a b c : a < 256 -> b < 256 -> c < 256 ->
  bytes3 (a / 4) (a mod 4 * 16 + b / 16) (b mod 16 * 4 + c / 64) (c mod 64) = [a; b; c].
Proof. intros Ha Hb Hc. unfold bytes3. now rewrite first_back, low4, second_back, third_back by assumption. Qed.

(** what reading a text of the alphabet [url] with the alphabet [dec] may give *)
Definition b64_reads (dec url : bool) (r : b64_err + bytes) (s : bytes) : Prop :=
  r = inr s \/ (dec = false /\ url = true /\ (r = inl (BadByte 45) \/ r = inl (BadByte 95))).
Lemma reads_bind dec url v (k : N -> b64_err + bytes) s : v < 64 -> (dec = url \/ dec = false /\ url = true) ->
  b64_reads dec url (k v) s -> b64_reads dec url (ebind (b64_sym dec (b64_char url v)) k) s.
Proof.
  intros Hv [->|[-> ->]] H.
  - rewrite sym_char by assumption. exact H.
  - destruct (sym_url v Hv) as [E|[E|E]]; rewrite E; cbn [ebind]; [exact H|right; auto|right; auto].
Qed.
Lemma reads_done dec url s : b64_reads dec url (inr s) s.
Proof. now left. Qed.

Lemma b64_decode_long dec a b c d e rest : b64_decode dec (a :: b :: c :: d :: e :: rest) =
  ebind (b64_sym dec a) (fun p => ebind (b64_sym dec b) (fun q => ebind (b64_sym dec c) (fun r => ebind (b64_sym dec d) (fun x =>
    ebind (b64_decode dec (e :: rest)) (fun more => inr (bytes3 p q r x ++ more)))))).
Proof. reflexivity. Qed.
Lemma encode_nonempty url pad a s : exists e rest, b64_encode url pad (a :: s) = e :: rest.
Proof. destruct s as [|b [|c s]]; cbn; eauto. Qed.
Lemma decode_encode dec url pad : (dec = url \/ dec = false /\ url = true) -> forall n s, (length s <= n)%nat -> bytes_ok s ->
  b64_reads dec url (b64_decode dec (b64_encode url pad s)) s.
Proof.
  intros Hd. induction n as [|n IH]; intros s Hl Hs.
  - destruct s; [now left|cbn in Hl; lia].
  - pose proof (syms_lt s Hs) as Hv.
    destruct s as [|a [|b [|c r]]]; [now left| | |].
    + inversion Hs as [|? ? Ha _]; subst. cbn [spec_syms] in Hv. inversion Hv as [|? ? V1 Hv1]; subst. inversion Hv1 as [|? ? V2 _]; subst.
      cbn [b64_encode b64_quad firstn app]. replace (0 / 16) with 0 by reflexivity. rewrite N.add_0_r.
      destruct pad; cbn [b64_decode app]; (apply reads_bind; [exact V1|exact Hd|]; apply reads_bind; [exact V2|exact Hd|]);
        cbn; rewrite ?bytes1_back by assumption; now left.
    + inversion Hs as [|? ? Ha Hs']; subst. inversion Hs' as [|? ? Hb _]; subst.
      cbn [spec_syms] in Hv. inversion Hv as [|? ? V1 Hv1]; subst. inversion Hv1 as [|? ? V2 Hv2]; subst. inversion Hv2 as [|? ? V3 _]; subst.
      cbn [b64_encode b64_quad firstn app]. replace (0 / 64) with 0 by reflexivity. rewrite N.add_0_r.
      destruct pad; cbn [b64_decode app]; (apply reads_bind; [exact V1|exact Hd|]; apply reads_bind; [exact V2|exact Hd|]);
        rewrite char_not_pad by assumption; (apply reads_bind; [exact V3|exact Hd|]); cbn [N.eqb Pos.eqb];
        rewrite bytes2_back by assumption; now left.
    + inversion Hs as [|? ? Ha Hs']; subst. inversion Hs' as [|? ? Hb Hs'']; subst. inversion Hs'' as [|? ? Hc Hr]; subst.
      rewrite spec_syms_cons in Hv.
      inversion Hv as [|? ? V1 Hv1]; subst. inversion Hv1 as [|? ? V2 Hv2]; subst. inversion Hv2 as [|? ? V3 Hv3]; subst. inversion Hv3 as [|? ? V4 _]; subst.
      rewrite b64_encode_cons. unfold b64_quad. cbn [app].
      destruct r as [|e r].
      * cbn [b64_encode b64_decode]. apply reads_bind; [exact V1|exact Hd|]; apply reads_bind; [exact V2|exact Hd|].
        rewrite char_not_pad by assumption. apply reads_bind; [exact V3|exact Hd|].
        rewrite char_not_pad by assumption. apply reads_bind; [exact V4|exact Hd|].
        rewrite bytes3_back by assumption. now left.
      * assert (Q : b64_reads dec url (b64_decode dec (b64_encode url pad (e :: r))) (e :: r)) by (apply IH; [cbn in *; lia|assumption]).
        destruct (encode_nonempty url pad e r) as (e' & r' & E). rewrite E in *.
        rewrite b64_decode_long.
        apply reads_bind; [exact V1|exact Hd|]. apply reads_bind; [exact V2|exact Hd|].
        apply reads_bind; [exact V3|exact Hd|]. apply reads_bind; [exact V4|exact Hd|].
        destruct Q as [Q|(-> & -> & [Q|Q])]; rewrite Q; cbn [ebind].
        -- rewrite bytes3_back by assumption. now left.
        -- right; auto.
        -- right; auto.
Qed.
Lemma de_bytes_encode url pad s : bytes_ok s -> de_bytes (b64_encode url pad s) = JOk s.
Proof.
  intros Hs. unfold de_bytes.
  assert (H : b64_reads false url (b64_decode false (b64_encode url pad s)) s).
  { eapply decode_encode; [destruct url; auto|apply Nat.le_refl|exact Hs]. }
  destruct H as [H|(_ & -> & H)]; [now rewrite H|].
  assert (H' : b64_reads true true (b64_decode true (b64_encode true pad s)) s).
  { eapply decode_encode; [now left|apply Nat.le_refl|exact Hs]. }
  destruct H' as [H'|(H' & _)]; [|discriminate].
  destruct H as [H|H]; rewrite H, H'; reflexivity.
Qed.

(** ** RFC 3339: specification *)
Definition all_digits (n : nat) (s : bytes) : Prop := length s = n /\ Forall (fun c => 48 <= c <= 57) s.
(** nothing, or a point and digits *)
Definition fraction (s : bytes) : Prop := s = [] \/ exists n ds, all_digits (S n) ds /\ s = 46 :: ds.
(** [Z], or a sign and HH:MM *)
Definition zone (s : bytes) : Prop :=
  s = s2b "Z" \/
  exists sgn h m, (sgn = 43 \/ sgn = 45) /\ all_digits 2 h /\ all_digits 2 m /\ s = sgn :: h ++ s2b ":" ++ m.
Definition rfc3339 (s : bytes) : Prop :=
  exists y mo d h mi se f z,
    all_digits 4 y /\ all_digits 2 mo /\ all_digits 2 d /\ all_digits 2 h /\ all_digits 2 mi /\ all_digits 2 se /\
    fraction f /\ zone z /\
    s = y ++ s2b "-" ++ mo ++ s2b "-" ++ d ++ s2b "T" ++ h ++ s2b ":" ++ mi ++ s2b ":" ++ se ++ f ++ z.

(** ** RFC 3339: the steps of the check *)
Lemma is_digit_range c : is_digit c = true <-> 48 <= c <= 57.
Proof. unfold is_digit. rewrite andb_true_iff, !N.leb_le. tauto. Qed.
Lemma pop_digits_spec n : forall s r, pop_digits n s = Some r <-> exists ds, all_digits n ds /\ s = ds ++ r.
Proof.
  induction n as [|n IH]; intros s r; cbn [pop_digits].
  - split.
    + intros [= <-]. exists []. repeat split; constructor.
    + intros (ds & [Hl _] & ->). destruct ds; [reflexivity|discriminate].
  - split.
    + intros H. destruct s as [|c s]; [discriminate|]. cbn in H. destruct (is_digit c) eqn:E; [|discriminate].
      cbn in H. apply IH in H. destruct H as (ds & [Hl Hf] & ->). exists (c :: ds).
      repeat split; [cbn; lia|constructor; [now apply is_digit_range|assumption]].
    + intros (ds & [Hl Hf] & ->). destruct ds as [|c ds]; [discriminate|]. inversion Hf; subst.
      cbn. apply is_digit_range in H1. rewrite H1. cbn. apply IH. exists ds. repeat split; [cbn in Hl; lia|assumption].
Qed.
Lemma pop_char_spec c s r : pop_char c s = Some r <-> s = c :: r.
Proof.
  unfold pop_char. destruct s as [|x s]; [split; discriminate|].
  destruct (N.eqb_spec x c) as [->|H]; split; [intros [= ->]; reflexivity|intros [= ->]; reflexivity|discriminate|congruence].
Qed.
Lemma obind_spec {A B} (a : option A) (k : A -> option B) r : obind a k = Some r <-> exists x, a = Some x /\ k x = Some r.
Proof. destruct a; cbn; split; [eauto|intros (x & [= ->] & H); exact H|discriminate|intros (x & [=] & _)]. Qed.

Lemma pop_date_spec s r : pop_date s = Some r <-> exists y mo d, all_digits 4 y /\ all_digits 2 mo /\ all_digits 2 d /\
  s = y ++ s2b "-" ++ mo ++ s2b "-" ++ d ++ r.
Proof.
  unfold pop_date. change (s2b "-") with [45]. cbn [app]. split.
  - intros H. apply obind_spec in H. destruct H as (s1 & H1 & H). apply obind_spec in H. destruct H as (s2 & H2 & H).
    apply obind_spec in H. destruct H as (s3 & H3 & H). apply obind_spec in H. destruct H as (s4 & H4 & H).
    apply pop_digits_spec in H1, H3, H. apply pop_char_spec in H2, H4. subst s1 s3.
    destruct H1 as (y & Hy & ->), H3 as (mo & Hm & ->), H as (d & Hd & ->). exists y, mo, d. auto.
  - intros (y & mo & d & Hy & Hm & Hd & ->).
    apply obind_spec. eexists. split; [apply pop_digits_spec; eauto|].
    apply obind_spec. eexists. split; [apply pop_char_spec; reflexivity|].
    apply obind_spec. eexists. split; [apply pop_digits_spec; eauto|].
    apply obind_spec. eexists. split; [apply pop_char_spec; reflexivity|]. apply pop_digits_spec; eauto.
Qed.
Lemma pop_time_spec s r : pop_time s = Some r <-> exists y mo d, all_digits 2 y /\ all_digits 2 mo /\ all_digits 2 d /\
  s = y ++ s2b ":" ++ mo ++ s2b ":" ++ d ++ r.
Proof.
  unfold pop_time. change (s2b ":") with [58]. cbn [app]. split.
  - intros H. apply obind_spec in H. destruct H as (s1 & H1 & H). apply obind_spec in H. destruct H as (s2 & H2 & H).
    apply obind_spec in H. destruct H as (s3 & H3 & H). apply obind_spec in H. destruct H as (s4 & H4 & H).
    apply pop_digits_spec in H1, H3, H. apply pop_char_spec in H2, H4. subst s1 s3.
    destruct H1 as (y & Hy & ->), H3 as (mo & Hm & ->), H as (d & Hd & ->). exists y, mo, d. auto.
  - intros (y & mo & d & Hy & Hm & Hd & ->).
    apply obind_spec. eexists. split; [apply pop_digits_spec; eauto|].
    apply obind_spec. eexists. split; [apply pop_char_spec; reflexivity|].
    apply obind_spec. eexists. split; [apply pop_digits_spec; eauto|].
    apply obind_spec. eexists. split; [apply pop_char_spec; reflexivity|]. apply pop_digits_spec; eauto.
Qed.

Lemma span_digits s : exists ds, Forall (fun c => 48 <= c <= 57) ds /\ s = ds ++ snd (span is_digit s) /\
  match snd (span is_digit s) with c :: _ => is_digit c = false | [] => True end.
Proof.
  induction s as [|c s (ds & A & B & C)]; cbn.
  - exists []. auto.
  - destruct (is_digit c) eqn:E.
    + destruct (span is_digit s) as [a b]. cbn in *. exists (c :: ds). split; [constructor; [now apply is_digit_range|exact A]|].
      split; [now rewrite B at 1|exact C].
    + exists []. cbn. auto.
Qed.
Lemma span_app ds r : Forall (fun c => 48 <= c <= 57) ds -> match r with c :: _ => is_digit c = false | [] => True end ->
  snd (span is_digit (ds ++ r)) = r.
Proof.
  intros H Hr. induction H as [|c ds Hc _ IH]; cbn [app].
  - destruct r as [|c r]; [reflexivity|]. cbn. now rewrite Hr.
  - cbn. apply is_digit_range in Hc. rewrite Hc. destruct (span is_digit (ds ++ r)). exact IH.
Qed.
Lemma zone_head z : zone z -> exists c r, z = c :: r /\ is_digit c = false /\ c <> 46.
Proof.
  intros [->|(sgn & h & m & [-> | ->] & _ & _ & ->)]; eexists; eexists; (split; [reflexivity|]); split; try reflexivity; discriminate.
Qed.
Lemma pop_zone z : pop_offset z = Some [] <-> zone z.
Proof.
  assert (K : forall c r, obind (pop_digits 2 r) (fun r0 => obind (pop_char 58 r0) (pop_digits 2)) = Some [] ->
    (c = 43 \/ c = 45) -> zone (c :: r)).
  { intros c r H Hc. rewrite obind_spec in H. destruct H as (s1 & H1 & H). rewrite obind_spec in H. destruct H as (s2 & H2 & H).
    apply pop_digits_spec in H1. destruct H1 as (h & Hh & ->). apply pop_char_spec in H2. subst s1.
    apply pop_digits_spec in H. destruct H as (m & Hm & ->). right. exists c, h, m. rewrite app_nil_r. auto. }
  split.
  - destruct z as [|c r]; [discriminate|]. unfold pop_offset. intros H.
    destruct (N.eq_dec c 43) as [->|N1]; [apply K; auto|]. destruct (N.eq_dec c 45) as [->|N2]; [apply K; auto|].
    assert (Q : pop_char 90 (c :: r) = Some []).
    { revert H. destruct c as [|p]; [auto|]. do 6 (try (destruct p as [p|p|]; try contradiction; auto)); intros; congruence. }
    apply pop_char_spec in Q. injection Q as -> ->. now left.
  - intros [->|(sgn & h & m & Hs & Hh & Hm & ->)]; [reflexivity|].
    assert (Q : obind (pop_digits 2 (h ++ s2b ":" ++ m)) (fun r0 => obind (pop_char 58 r0) (pop_digits 2)) = Some []).
    { apply obind_spec. exists (s2b ":" ++ m). split; [apply pop_digits_spec; eauto|].
      apply obind_spec. exists m. split; [reflexivity|]. apply pop_digits_spec. exists m. now rewrite app_nil_r. }
    destruct Hs as [-> | ->]; exact Q.
Qed.
Lemma pop_fraction_zone s : (exists r, pop_fraction s = Some r /\ pop_offset r = Some []) <->
  exists f z, fraction f /\ zone z /\ s = f ++ z.
Proof.
  split.
  - intros (r & H & Hz). apply pop_zone in Hz. unfold pop_fraction in H.
    assert (D : pop_fraction s = Some s \/ exists s', s = 46 :: s').
    { destruct s as [|c s]; [now left|]. destruct (N.eq_dec c 46) as [->|Hc]; [eauto|left].
      cbn. destruct c as [|p]; [reflexivity|]. do 6 (try (destruct p as [p|p|]; try contradiction; try reflexivity)). }
    destruct D as [D|(s' & ->)].
    + unfold pop_fraction in D. rewrite D in H. injection H as <-. exists [], s. repeat split; [now left|exact Hz].
    + apply obind_spec in H. destruct H as (s1 & H1 & [= <-]).
      destruct s' as [|c s']; [discriminate|]. cbn in H1. destruct (is_digit c) eqn:E; [|discriminate]. injection H1 as <-.
      destruct (span_digits s') as (ds & A & B & _).
      exists (46 :: c :: ds), (snd (span is_digit s')). split; [|split; [exact Hz|]].
      * right. exists (length ds), (c :: ds). split; [|reflexivity]. split; [reflexivity|]. constructor; [now apply is_digit_range|exact A].
      * cbn. now rewrite <- B.
  - intros (f & z & [->|(n & ds & [Hl Hd] & ->)] & Hz & ->).
    + destruct (zone_head z Hz) as (c & r & -> & Hc & Hc46). exists (c :: r). split; [|now apply pop_zone].
      cbn. destruct c as [|p]; [reflexivity|]. do 6 (try (destruct p as [p|p|]; try contradiction; try reflexivity)).
    + destruct ds as [|d ds]; [discriminate|]. inversion Hd; subst. exists z. split; [|now apply pop_zone].
      cbn [app pop_fraction pop_digit]. apply is_digit_range in H1. rewrite H1. cbn [obind].
      rewrite span_app; [reflexivity|assumption|]. destruct (zone_head z Hz) as (c & r & -> & Hc & _). exact Hc.
Qed.
Lemma strict_rfc3339_spec s : strict_rfc3339 s = true <-> rfc3339 s.
Proof.
  unfold strict_rfc3339.
  assert (Q : forall o : option bytes, (match o with Some [] => true | _ => false end = true) <-> o = Some [])
    by (intros [[|? ?]|]; split; intros H; first [reflexivity|discriminate H]).
  rewrite Q. clear Q. change (s2b "T") with [84]. split.
  - intros H. apply obind_spec in H. destruct H as (s1 & H1 & H). apply obind_spec in H. destruct H as (s2 & H2 & H).
    apply obind_spec in H. destruct H as (s3 & H3 & H). apply obind_spec, pop_fraction_zone in H.
    apply pop_date_spec in H1. apply pop_char_spec in H2. apply pop_time_spec in H3. subst s1.
    destruct H1 as (y & mo & d & Hy & Hmo & Hd & ->), H3 as (h & mi & se & Hh & Hmi & Hse & ->), H as (f & z & Hf & Hz & ->).
    exists y, mo, d, h, mi, se, f, z. repeat (split; [assumption|]). reflexivity.
  - intros (y & mo & d & h & mi & se & f & z & Hy & Hmo & Hd & Hh & Hmi & Hse & Hf & Hz & ->).
    apply obind_spec. eexists. split; [apply pop_date_spec; exists y, mo, d; repeat (split; [assumption|]); reflexivity|].
    apply obind_spec. eexists. split; [apply pop_char_spec; reflexivity|].
    apply obind_spec. eexists. split; [apply pop_time_spec; exists h, mi, se; repeat (split; [assumption|]); reflexivity|].
    apply obind_spec, pop_fraction_zone. exists f, z. auto.
Qed.

(** ** Integers: specification *)

(** the f64 with bits [b] is equal to the integer [z] (IEEE 754): sign, biased
    exponent and fraction *)
Definition f64_is (b : N) (z : Z) : Prop :=
  exists s ex fr, b = s * 2 ^ 63 + ex * 2 ^ 52 + fr /\ s < 2 /\ ex < 2047 /\ fr < 2 ^ 52 /\
    let m := Z.of_N (if ex =? 0 then fr else 2 ^ 52 + fr) in
    let e := (Z.of_N (if ex =? 0 then 1 else ex)%N - 1075)%Z in
    ((if (s =? 0)%N then m else - m) * 2 ^ Z.max 0 e = z * 2 ^ Z.max 0 (- e))%Z.

Lemma mod0_div m d q : 0 < d -> (m mod d =? 0 = true /\ q = m / d) <-> m = q * d.
Proof.
  intros Hd. split.
  - intros [H ->]. apply N.eqb_eq in H. pose proof (N.div_mod m d ltac:(lia)). lia.
  - intros ->. split; [apply N.eqb_eq, N.mod_mul; lia|]. symmetry. apply N.div_mul. lia.
Qed.
Lemma f64_split b : b < 2 ^ 64 -> exists s ex fr, b = s * 2 ^ 63 + ex * 2 ^ 52 + fr /\ s < 2 /\ ex < 2048 /\ fr < 2 ^ 52 /\
  f64_mag b = ex * 2 ^ 52 + fr /\ (b <? sign64) = (s =? 0) /\ f64_mag b / 4503599627370496 = ex /\ f64_mag b mod 4503599627370496 = fr.
Proof.
  intros H. exists (b / 2 ^ 63), (b mod 2 ^ 63 / 2 ^ 52), (b mod 2 ^ 63 mod 2 ^ 52).
  assert (A := N.div_mod b (2 ^ 63) ltac:(discriminate)).
  assert (B := N.div_mod (b mod 2 ^ 63) (2 ^ 52) ltac:(discriminate)).
  assert (C := N.mod_lt b (2 ^ 63) ltac:(discriminate)).
  assert (D := N.mod_lt (b mod 2 ^ 63) (2 ^ 52) ltac:(discriminate)).
  assert (S2 : b / 2 ^ 63 < 2) by (apply N.div_lt_upper_bound; [discriminate|]; change (2 ^ 63 * 2) with (2 ^ 64); exact H).
  assert (X2 : b mod 2 ^ 63 / 2 ^ 52 < 2048) by (apply N.div_lt_upper_bound; [discriminate|]; change (2 ^ 52 * 2048) with (2 ^ 63); exact C).
  unfold f64_mag. change sign64 with (2 ^ 63). change 4503599627370496 with (2 ^ 52).
  repeat split; try assumption; try lia.
Qed.
Lemma of_shiftl m k : Z.of_N (N.shiftl m k) = (Z.of_N m * 2 ^ Z.of_N k)%Z.
Proof. rewrite N.shiftl_mul_pow2, N2Z.inj_mul, N2Z.inj_pow. reflexivity. Qed.
Lemma f64_int_spec b z : b < 2 ^ 64 -> f64_int b = Some z <-> f64_is b z.
Proof.
  intros Hb. destruct (f64_split b Hb) as (s & ex & fr & Eb & Hs & Hex & Hfr & Hmag & Hsg & Hd & Hm).
  assert (U : forall s' ex' fr', b = s' * 2 ^ 63 + ex' * 2 ^ 52 + fr' -> s' < 2 -> ex' < 2047 -> fr' < 2 ^ 52 ->
    s' = s /\ ex' = ex /\ fr' = fr).
  { intros s' ex' fr' E' A B C. clear -Eb Hs Hex Hfr E' A B C.
    change (2 ^ 63) with (2048 * 2 ^ 52) in *. set (w := 2 ^ 52) in *.
    assert (Q : (s' * 2048 + ex') * w + fr' = (s * 2048 + ex) * w + fr) by lia.
    assert (Q1 : ((s' * 2048 + ex') * w + fr') / w = ((s * 2048 + ex) * w + fr) / w) by now rewrite Q.
    rewrite !N.div_add_l, !N.div_small in Q1 by (assumption || (subst w; discriminate)).
    rewrite !N.add_0_r in Q1. assert (fr' = fr) by (rewrite Q1 in Q; lia). lia. }
  unfold f64_int, f64_finite, f64_parts. rewrite Hd, Hm, Hsg, Hmag.
  assert (F : (ex * 2 ^ 52 + fr <? inf64) = (ex <? 2047)).
  { change inf64 with (2047 * 2 ^ 52). clear -Hfr. set (w := 2 ^ 52) in *.
    destruct (N.ltb_spec ex 2047) as [L|L]; [apply N.ltb_lt|apply N.ltb_ge]; nia. }
  rewrite F. change 4503599627370496 with (2 ^ 52). rewrite (N.add_comm fr (2 ^ 52)).
  set (m := if ex =? 0 then fr else 2 ^ 52 + fr).
  set (e := (Z.of_N (if ex =? 0 then 1 else ex)%N - 1075)%Z).
  assert (Spec : f64_is b z <-> ex < 2047 /\ ((if (s =? 0)%N then Z.of_N m else - Z.of_N m) * 2 ^ Z.max 0 e = z * 2 ^ Z.max 0 (- e))%Z).
  { split.
    - intros (s' & ex' & fr' & E' & A & B & C & G). destruct (U _ _ _ E' A B C) as (-> & -> & ->). auto.
    - intros [A G]. exists s, ex, fr. auto. }
  rewrite Spec. clear Spec U F Hmag Hsg Hd Hm Eb.
  destruct (N.ltb_spec ex 2047) as [L|L]; [|split; [discriminate|lia]].
  assert (SM : (if (s =? 0)%N then Z.of_N m else - Z.of_N m)%Z = ((if (s =? 0)%N then 1 else -1) * Z.of_N m)%Z) by (destruct (s =? 0); lia).
  rewrite SM. clear SM.
  destruct (Z.leb_spec 0 e) as [P|P].
  - rewrite (Z.max_r 0 e), (Z.max_l 0 (- e)) by lia. change (2 ^ 0)%Z with 1%Z.
    assert (E : Z.of_N (N.shiftl m (Z.to_N e)) = (Z.of_N m * 2 ^ e)%Z) by (rewrite of_shiftl; now rewrite Z2N.id by lia).
    split; [intros [= <-]; split; [exact L|]|intros [_ H]; f_equal]; destruct (s =? 0); rewrite E; lia.
  - rewrite (Z.max_l 0 e), (Z.max_r 0 (- e)) by lia. change (2 ^ 0)%Z with 1%Z.
    set (d := N.shiftl 1 (Z.to_N (- e))).
    assert (E : Z.of_N d = (2 ^ - e)%Z) by (subst d; rewrite of_shiftl, Z2N.id by lia; lia).
    assert (Hd : 0 < d) by (pose proof (Z.pow_pos_nonneg 2 (- e)); lia).
    rewrite <- E.
    assert (K : forall q, (m mod d =? 0) = true /\ q = m / d <-> m = q * d) by (intros; now apply mod0_div).
    split.
    + intros H. split; [exact L|]. destruct (m mod d =? 0) eqn:Em; [|discriminate].
      destruct (K (m / d)) as [K1 _]. specialize (K1 (conj eq_refl eq_refl)).
      assert (KZ : Z.of_N m = (Z.of_N (m / d) * Z.of_N d)%Z) by (rewrite <- N2Z.inj_mul; now f_equal).
      injection H as <-. destruct (s =? 0); rewrite KZ; ring.
    + intros [_ H].
      assert (AZ : Z.of_N m = (Z.abs z * Z.of_N d)%Z).
      { assert (Q : Z.abs ((if (s =? 0)%N then 1 else -1) * Z.of_N m * 1) = Z.abs (z * Z.of_N d)) by now rewrite H.
        rewrite !Z.abs_mul in Q. rewrite (Z.abs_eq (Z.of_N m)), (Z.abs_eq (Z.of_N d)) in Q by lia.
        destruct (s =? 0); cbn [Z.abs] in Q; lia. }
      assert (AN : m = Z.abs_N z * d) by (apply N2Z.inj; rewrite N2Z.inj_mul, AZ; f_equal; lia).
      destruct (K (Z.abs_N z)) as [_ K2]. destruct (K2 AN) as [K3 K4]. rewrite K3, <- K4.
      assert (0 < Z.of_N d)%Z by lia.
      f_equal. destruct (s =? 0).
      * assert (0 <= z)%Z by nia. lia.
      * assert (z <= 0)%Z by nia. lia.
Qed.

(** ** Integers: the visitors *)
Lemma de_int_int lo hi fhi z : de_int lo hi fhi (JInt z) = if (lo <=? z)%Z && (z <=? hi)%Z then JOk z else JErr XRange.
Proof. reflexivity. Qed.
Lemma de_int_float lo hi fhi b : (lo <= hi)%Z -> (hi <= fhi)%Z -> b < 2 ^ 64 ->
  (exists z, f64_is b z /\ (lo <= z <= fhi)%Z /\ de_int lo hi fhi (JF64 b) = JOk (Z.min hi z)) \/
  (exists e, (forall z, f64_is b z -> ~ (lo <= z <= fhi)%Z) /\ de_int lo hi fhi (JF64 b) = JErr e).
Proof.
  intros L1 L2 Hb. cbn [de_int].
  destruct (f64_int b) as [z|] eqn:E.
  - pose proof (proj1 (f64_int_spec b z Hb) E) as Hz.
    destruct ((z <? lo)%Z || (fhi <? z)%Z) eqn:R.
    + right. exists XRange. split; [|reflexivity]. intros z' Hz'. apply (f64_int_spec b z' Hb) in Hz'.
      rewrite E in Hz'. injection Hz' as <-. apply orb_prop in R. destruct R as [R|R]; apply Z.ltb_lt in R; lia.
    + left. exists z. apply orb_false_elim in R. destruct R as [R1 R2]. apply Z.ltb_ge in R1. apply Z.ltb_ge in R2.
      repeat split; try lia; [exact Hz|]. f_equal. lia.
  - right. exists XNotInteger. split; [|reflexivity]. intros z Hz. apply (f64_int_spec b z Hb) in Hz. congruence.
Qed.
