(** Proofs for C60: base64, masks, and all scalars. *)
From Coq Require Import String.
From Verif Require Import Base BaseProofs Wire Unknown Value Descr Fields Codec DescrOk Float TextFormat TextParse Json JsonSer
  JsonNumbers JsonMask JsonDe JsonSafe Prop_JsonSafe Prop_JsonRules JsonMeaning JsonMeaningScalars.
Open Scope list_scope.
Open Scope N_scope.

(** ** Base64 *)
Definition boolsb (a b : list bool) : bool := if list_eq_dec Bool.bool_dec a b then true else false.
Lemma boolsb_eq a b : boolsb a b = true -> a = b.
Proof. unfold boolsb. destruct (list_eq_dec Bool.bool_dec a b); [auto|discriminate]. Qed.
Lemma cut1 p q : p < 64 -> q < 64 -> bits 6 p ++ bits 6 q = bits 8 (p * 4 + q / 16) ++ skipn 2 (bits 6 q).
Proof.
  intros H H'. apply boolsb_eq. refine (check2 (fun p q => boolsb (bits 6 p ++ bits 6 q) (bits 8 (p * 4 + q / 16) ++ skipn 2 (bits 6 q))) 64 _ p q H H').
  vm_compute. reflexivity.
Qed.
Lemma cut2 p q : p < 64 -> q < 64 -> skipn 2 (bits 6 p) ++ bits 6 q = bits 8 (p mod 16 * 16 + q / 4) ++ skipn 4 (bits 6 q).
Proof.
  intros H H'. apply boolsb_eq. refine (check2 (fun p q => boolsb (skipn 2 (bits 6 p) ++ bits 6 q) (bits 8 (p mod 16 * 16 + q / 4) ++ skipn 4 (bits 6 q))) 64 _ p q H H').
  vm_compute. reflexivity.
Qed.
Lemma cut3 p q : p < 64 -> q < 64 -> skipn 4 (bits 6 p) ++ bits 6 q = bits 8 (p mod 4 * 64 + q).
Proof.
  intros H H'. apply boolsb_eq. refine (check2 (fun p q => boolsb (skipn 4 (bits 6 p) ++ bits 6 q) (bits 8 (p mod 4 * 64 + q))) 64 _ p q H H').
  vm_compute. reflexivity.
Qed.
Lemma bits8_inj a b : a < 256 -> b < 256 -> bits 8 a = bits 8 b -> a = b.
Proof.
  assert (V : forall x, x < 256 -> bval (bits 8 x) = x).
  { intros x H. apply N.eqb_eq. refine (check1 (fun v => bval (bits 8 v) =? v) 256 _ x H). vm_compute. reflexivity. }
  intros Ha Hb E. rewrite <- (V a Ha), <- (V b Hb). now rewrite E.
Qed.
Lemma byte1_lt p q : p < 64 -> q < 64 -> p * 4 + q / 16 < 256.
Proof. intros H1 H2. assert (q / 16 < 4) by (apply N.div_lt_upper_bound; lia). lia. Qed.
Lemma byte2_lt p q : p < 64 -> q < 64 -> p mod 16 * 16 + q / 4 < 256.
Proof. intros H1 H2. assert (q / 4 < 16) by (apply N.div_lt_upper_bound; lia). pose proof (N.mod_lt p 16 ltac:(lia)). lia. Qed.
Lemma byte3_lt p q : p < 64 -> q < 64 -> p mod 4 * 64 + q < 256.
Proof. intros H1 H2. pose proof (N.mod_lt p 4 ltac:(lia)). lia. Qed.

Lemma sym_iff url c v : b64_sym url c = inr v <-> v < 64 /\ c = b64_char url v.
Proof.
  split.
  - unfold b64_sym, b64_val, b64_char. intros H.
    destruct ((65 <=? c) && (c <=? 90)) eqn:E1.
    { assert (v = c - 65) by congruence. subst v. split; [lia|]. replace (c - 65 <? 26) with true by lia. lia. }
    destruct ((97 <=? c) && (c <=? 122)) eqn:E2.
    { assert (v = c - 71) by congruence. subst v. split; [lia|]. replace (c - 71 <? 26) with false by lia. replace (c - 71 <? 52) with true by lia. lia. }
    destruct ((48 <=? c) && (c <=? 57)) eqn:E3.
    { assert (v = c + 4) by congruence. subst v. split; [lia|]. replace (c + 4 <? 26) with false by lia. replace (c + 4 <? 52) with false by lia.
      replace (c + 4 <? 62) with true by lia. lia. }
    destruct (c =? (if url then 45 else 43)) eqn:E4.
    { assert (v = 62) by congruence. subst v. split; [lia|]. apply N.eqb_eq in E4. cbn. exact E4. }
    destruct (c =? (if url then 95 else 47)) eqn:E5.
    { assert (v = 63) by congruence. subst v. split; [lia|]. apply N.eqb_eq in E5. cbn. exact E5. }
    discriminate H.
  - intros [H ->]. now apply sym_char.
Qed.

(** the text in one alphabet *)
Definition b64_in (url : bool) (text bs : bytes) : Prop :=
  exists syms p rest, Forall (fun v => v < 64) syms /\ bytes_ok bs /\
    text = map (b64_char url) syms ++ repeat 61 p /\
    flat_map (bits 6) syms = flat_map (bits 8) bs ++ rest /\ (length rest < 6)%nat /\
    (p = 0 \/ length syms mod 4 <> 0 /\ length syms mod 4 + p <= 4)%nat.
Lemma b64_says_in text bs : b64_says text bs <-> exists url, b64_in url text bs.
Proof.
  assert (M : forall url syms, Forall (fun v => v < 64) syms ->
    map (fun v => nth (N.to_nat v) (b64_alphabet url) 0) syms = map (b64_char url) syms).
  { intros url syms H. apply map_ext_in. intros v Hv. rewrite Forall_forall in H. now apply char_alphabet, H. }
  split.
  - intros (url & syms & p & rest & H1 & H2 & H3 & H4). exists url, syms, p, rest. rewrite M in H3 by exact H1. auto.
  - intros (url & syms & p & rest & H1 & H2 & H3 & H4). exists url, syms, p, rest. rewrite M by exact H1. auto.
Qed.

Lemma pad_sym url : exists e, b64_sym url 61 = inl e.
Proof. destruct url; eexists; vm_compute; reflexivity. Qed.

Lemma app_len_inj {A} (a b c d : list A) : length a = length c -> a ++ b = c ++ d -> a = c /\ b = d.
Proof.
  revert c. induction a as [|x a IH]; intros [|y c] Hl H; try discriminate Hl; [auto|].
  cbn in *. injection H as -> H. injection Hl as Hl. destruct (IH c Hl H) as [-> ->]. auto.
Qed.
Lemma first_byte a b more x rest : a < 64 -> b < 64 -> x < 256 -> bits 6 a ++ bits 6 b ++ more = bits 8 x ++ rest ->
  x = a * 4 + b / 16 /\ rest = skipn 2 (bits 6 b) ++ more.
Proof.
  intros Ha Hb Hx H. rewrite app_assoc, cut1, <- app_assoc in H by assumption. apply app_len_inj in H; [|now rewrite !bits_length].
  destruct H as [H1 H2]. split; [|now symmetry]. apply bits8_inj; [exact Hx|now apply byte1_lt|now symmetry].
Qed.
Lemma second_byte a b more x rest : a < 64 -> b < 64 -> x < 256 -> skipn 2 (bits 6 a) ++ bits 6 b ++ more = bits 8 x ++ rest ->
  x = a mod 16 * 16 + b / 4 /\ rest = skipn 4 (bits 6 b) ++ more.
Proof.
  intros Ha Hb Hx H. rewrite app_assoc, cut2, <- app_assoc in H by assumption. apply app_len_inj in H; [|now rewrite !bits_length].
  destruct H as [H1 H2]. split; [|now symmetry]. apply bits8_inj; [exact Hx|now apply byte2_lt|now symmetry].
Qed.
Lemma third_byte a b more x rest : a < 64 -> b < 64 -> x < 256 -> skipn 4 (bits 6 a) ++ bits 6 b ++ more = bits 8 x ++ rest ->
  x = a mod 4 * 64 + b /\ rest = more.
Proof.
  intros Ha Hb Hx H. rewrite app_assoc, cut3 in H by assumption. apply app_len_inj in H; [|now rewrite !bits_length].
  destruct H as [H1 H2]. split; [|now symmetry]. apply bits8_inj; [exact Hx|now apply byte3_lt|now symmetry].
Qed.
Lemma quad_bits p q r x more : p < 64 -> q < 64 -> r < 64 -> x < 64 ->
  bits 6 p ++ bits 6 q ++ bits 6 r ++ bits 6 x ++ more =
  bits 8 (p * 4 + q / 16) ++ bits 8 (q mod 16 * 16 + r / 4) ++ bits 8 (r mod 4 * 64 + x) ++ more.
Proof.
  intros. rewrite (app_assoc (bits 6 p)), cut1, <- app_assoc by assumption. f_equal.
  rewrite (app_assoc (skipn 2 _)), cut2, <- app_assoc by assumption. f_equal.
  now rewrite (app_assoc (skipn 4 _)), cut3 by assumption.
Qed.
Lemma skip_len2 q : length (skipn 2 (bits 6 q)) = 4%nat.
Proof. now rewrite skipn_length, bits_length. Qed.
Lemma skip_len4 q : length (skipn 4 (bits 6 q)) = 2%nat.
Proof. now rewrite skipn_length, bits_length. Qed.
Lemma bytes_ok_cons b l : b < 256 -> bytes_ok l -> bytes_ok (b :: l).
Proof. intros. now constructor. Qed.

Lemma nil_in url : b64_in url [] [].
Proof. exists [], 0%nat, []. split; [constructor|]. split; [constructor|]. split; [reflexivity|]. split; [reflexivity|]. split; [cbn; lia|now left]. Qed.
Lemma decode_in_fwd url n : forall s bs, (length s <= n)%nat -> b64_decode url s = inr bs -> b64_in url s bs.
Proof.
  induction n as [|n IH]; intros s bs Hl H.
  { destruct s; [|cbn in Hl; lia]. injection H as <-. apply nil_in. }
  destruct s as [|a [|b [|c [|d [|e rest]]]]].
  - injection H as <-. apply nil_in.
  - cbn [b64_decode] in H. unfold ebind in H. destruct (b64_sym url a); discriminate H.
  - cbn [b64_decode] in H. destruct (b64_sym url a) as [er|p] eqn:Ea; [discriminate H|]. destruct (b64_sym url b) as [er|q] eqn:Es; [discriminate H|].
    cbn [ebind] in H. apply sym_iff in Ea. destruct Ea as [Hp ->]. assert (bs = bytes1 p q) by congruence. subst bs. clear H.
    apply sym_iff in Es. destruct Es as [Hq ->]. exists [p; q], 0%nat, (skipn 2 (bits 6 q)).
    split; [repeat constructor; assumption|]. split; [apply bytes_ok_cons; [now apply byte1_lt|constructor]|]. split; [reflexivity|].
    split; [cbn [flat_map bytes1]; rewrite !app_nil_r; now apply cut1|]. rewrite skip_len2. split; [lia|now left].
  - cbn [b64_decode] in H. destruct (b64_sym url a) as [er|p] eqn:Ea; [discriminate H|]. destruct (b64_sym url b) as [er|q] eqn:Eb; [discriminate H|].
    cbn [ebind] in H. apply sym_iff in Ea. destruct Ea as [Hp ->]. apply sym_iff in Eb. destruct Eb as [Hq ->].
    destruct (c =? 61) eqn:Ec.
    + apply N.eqb_eq in Ec. subst c. assert (bs = bytes1 p q) by congruence. subst bs. exists [p; q], 1%nat, (skipn 2 (bits 6 q)).
      split; [repeat constructor; assumption|]. split; [apply bytes_ok_cons; [now apply byte1_lt|constructor]|]. split; [reflexivity|].
      split; [cbn [flat_map bytes1]; rewrite !app_nil_r; now apply cut1|]. rewrite skip_len2. split; [lia|right; cbn; lia].
    + destruct (b64_sym url c) as [er|r] eqn:Er; [discriminate H|]. cbn [ebind] in H. apply sym_iff in Er. destruct Er as [Hr ->].
      assert (bs = bytes2 p q r) by congruence. subst bs. exists [p; q; r], 0%nat, (skipn 4 (bits 6 r)).
      split; [repeat constructor; assumption|]. split; [apply bytes_ok_cons; [now apply byte1_lt|apply bytes_ok_cons; [now apply byte2_lt|constructor]]|].
      split; [reflexivity|]. split; [|rewrite skip_len4; split; [lia|now left]].
      cbn [flat_map bytes2]. rewrite !app_nil_r, (app_assoc (bits 6 p)), cut1, <- !app_assoc by assumption. f_equal. now apply cut2.
  - cbn [b64_decode] in H. destruct (b64_sym url a) as [er|p] eqn:Ea; [discriminate H|]. destruct (b64_sym url b) as [er|q] eqn:Eb; [discriminate H|].
    cbn [ebind] in H. apply sym_iff in Ea. destruct Ea as [Hp ->]. apply sym_iff in Eb. destruct Eb as [Hq ->].
    destruct (c =? 61) eqn:Ec.
    + destruct (d =? 61) eqn:Ed; [|discriminate H]. apply N.eqb_eq in Ec. apply N.eqb_eq in Ed. subst c d.
      assert (bs = bytes1 p q) by congruence. subst bs. exists [p; q], 2%nat, (skipn 2 (bits 6 q)).
      split; [repeat constructor; assumption|]. split; [apply bytes_ok_cons; [now apply byte1_lt|constructor]|]. split; [reflexivity|].
      split; [cbn [flat_map bytes1]; rewrite !app_nil_r; now apply cut1|]. rewrite skip_len2. split; [lia|right; cbn; lia].
    + destruct (b64_sym url c) as [er|r] eqn:Er; [discriminate H|]. cbn [ebind] in H. apply sym_iff in Er. destruct Er as [Hr ->].
      destruct (d =? 61) eqn:Ed.
      * apply N.eqb_eq in Ed. subst d. assert (bs = bytes2 p q r) by congruence. subst bs. exists [p; q; r], 1%nat, (skipn 4 (bits 6 r)).
        split; [repeat constructor; assumption|]. split; [apply bytes_ok_cons; [now apply byte1_lt|apply bytes_ok_cons; [now apply byte2_lt|constructor]]|].
        split; [reflexivity|]. split; [|rewrite skip_len4; split; [lia|right; cbn; lia]].
        cbn [flat_map bytes2]. rewrite !app_nil_r, (app_assoc (bits 6 p)), cut1, <- !app_assoc by assumption. f_equal. now apply cut2.
      * destruct (b64_sym url d) as [er|x] eqn:Ex; [discriminate H|]. cbn [ebind] in H. apply sym_iff in Ex. destruct Ex as [Hx ->].
        assert (bs = bytes3 p q r x) by congruence. subst bs. exists [p; q; r; x], 0%nat, [].
        split; [repeat constructor; assumption|].
        split; [apply bytes_ok_cons; [now apply byte1_lt|apply bytes_ok_cons; [now apply byte2_lt|apply bytes_ok_cons; [now apply byte3_lt|constructor]]]|].
        split; [reflexivity|]. split; [|split; [cbn; lia|now left]].
        cbn [flat_map bytes3 app]. rewrite quad_bits by assumption. now rewrite !app_nil_r.
  - rewrite b64_decode_long in H. destruct (b64_sym url a) as [er|p] eqn:Ea; [discriminate H|]. destruct (b64_sym url b) as [er|q] eqn:Eb; [discriminate H|].
    destruct (b64_sym url c) as [er|r] eqn:Er; [discriminate H|]. destruct (b64_sym url d) as [er|x] eqn:Ex; [discriminate H|]. cbn [ebind] in H.
    destruct (b64_decode url (e :: rest)) as [er|more] eqn:Em; [discriminate H|]. cbn [ebind] in H.
    assert (bs = bytes3 p q r x ++ more) by congruence. subst bs. clear H.
    apply sym_iff in Ea. destruct Ea as [Hp ->]. apply sym_iff in Eb. destruct Eb as [Hq ->].
    apply sym_iff in Er. destruct Er as [Hr ->]. apply sym_iff in Ex. destruct Ex as [Hx ->].
    destruct (IH (e :: rest) more ltac:(cbn in Hl |- *; lia) Em) as (syms & k & rs & K1 & K2 & K3 & K4 & K5 & K6).
    exists (p :: q :: r :: x :: syms), k, rs. split; [repeat (constructor; [assumption|]); exact K1|].
    split; [apply bytes_ok_cons; [now apply byte1_lt|apply bytes_ok_cons; [now apply byte2_lt|apply bytes_ok_cons; [now apply byte3_lt|exact K2]]]|].
    split; [cbn [map app]; now rewrite K3|]. split; [|split; [exact K5|]].
    + cbn [flat_map bytes3 app]. rewrite K4, quad_bits by assumption. now rewrite <- !app_assoc.
    + cbn [length]. destruct K6 as [K6|K6]; [now left|right]. rewrite <- (mod4_add (length syms)) in K6. exact K6.
Qed.

Lemma decode_in_bwd url n : forall syms p bs rest, (length syms <= n)%nat -> Forall (fun v => v < 64) syms -> bytes_ok bs ->
  flat_map (bits 6) syms = flat_map (bits 8) bs ++ rest -> (length rest < 6)%nat ->
  (p = 0 \/ length syms mod 4 <> 0 /\ length syms mod 4 + p <= 4)%nat ->
  b64_decode url (map (b64_char url) syms ++ repeat 61 p) = inr bs.
Proof.
  assert (Z0 : forall bs rest, flat_map (bits 8) bs ++ rest = [] -> bs = [] /\ rest = []).
  { intros [|b bs] rest H; [auto|]. exfalso. apply (f_equal (@length bool)) in H. cbn [flat_map] in H. rewrite !app_length, bits_length in H. discriminate H. }
  induction n as [|n IH]; intros syms p bs rest Hl Hv Hb H Hr Hp.
  { destruct syms; [|cbn in Hl; lia]. cbn in H. symmetry in H. apply Z0 in H. destruct H as [-> ->]. destruct Hp as [->|[Hp _]]; [reflexivity|]. now destruct Hp. }
  pose proof (f_equal (@length bool) H) as HL. rewrite app_length, !flat_bits_length in HL.
  destruct syms as [|a [|b [|c [|d more]]]].
  - cbn in H. symmetry in H. apply Z0 in H. destruct H as [-> ->]. destruct Hp as [->|[Hp _]]; [reflexivity|]. now destruct Hp.
  - cbn [length] in HL. destruct bs; cbn [length] in HL; lia.
  - inversion Hv as [|? ? Ha Hv1]; subst. inversion Hv1 as [|? ? Hbb _]; subst. cbn [length] in HL, Hp. change (2 mod 4)%nat with 2%nat in Hp.
    destruct bs as [|x [|y bs]]; cbn [length] in HL; [lia| |lia]. inversion Hb as [|? ? Hx _]; subst.
    cbn [flat_map] in H. rewrite <- !app_assoc in H. cbn [app] in H. destruct (first_byte a b [] x rest Ha Hbb Hx H) as [-> _].
    assert (D : p = 0%nat \/ p = 1%nat \/ p = 2%nat) by lia. cbn [map app].
    destruct D as [->|[->| ->]]; cbn [repeat b64_decode]; rewrite (sym_char url a Ha), (sym_char url b Hbb); reflexivity.
  - inversion Hv as [|? ? Ha Hv1]; subst. inversion Hv1 as [|? ? Hbb Hv2]; subst. inversion Hv2 as [|? ? Hc _]; subst.
    cbn [length] in HL, Hp. change (3 mod 4)%nat with 3%nat in Hp.
    destruct bs as [|x [|y [|z bs]]]; cbn [length] in HL; [lia|lia| |lia]. inversion Hb as [|? ? Hx Hb1]; subst. inversion Hb1 as [|? ? Hy _]; subst.
    cbn [flat_map] in H. rewrite <- !app_assoc in H. cbn [app] in H. destruct (first_byte a b _ x _ Ha Hbb Hx H) as [-> H1]. symmetry in H1.
    destruct (second_byte b c [] y _ Hbb Hc Hy H1) as [-> _].
    assert (D : p = 0%nat \/ p = 1%nat) by lia. cbn [map app].
    destruct D as [->| ->]; cbn [repeat b64_decode]; rewrite (sym_char url a Ha), (sym_char url b Hbb), (char_not_pad url c Hc), (sym_char url c Hc); reflexivity.
  - inversion Hv as [|? ? Ha Hv1]; subst. inversion Hv1 as [|? ? Hbb Hv2]; subst. inversion Hv2 as [|? ? Hc Hv3]; subst. inversion Hv3 as [|? ? Hd Hm]; subst.
    cbn [length] in HL. destruct bs as [|x [|y [|z bs]]]; cbn [length] in HL; [lia|lia|lia|].
    inversion Hb as [|? ? Hx Hb1]; subst. inversion Hb1 as [|? ? Hy Hb2]; subst. inversion Hb2 as [|? ? Hz Hb3]; subst.
    cbn [flat_map] in H. rewrite <- !app_assoc in H. destruct (first_byte a b _ x _ Ha Hbb Hx H) as [-> H1]. symmetry in H1.
    destruct (second_byte b c _ y _ Hbb Hc Hy H1) as [-> H2]. symmetry in H2. destruct (third_byte c d _ z _ Hc Hd Hz H2) as [-> H3]. symmetry in H3.
    cbn [length] in Hp. change (S (S (S (S (length more))))) with (4 + length more)%nat in Hp. rewrite mod4_add in Hp.
    specialize (IH more p bs rest ltac:(cbn in Hl; lia) Hm Hb3 H3 Hr Hp).
    cbn [map app]. destruct (map (b64_char url) more ++ repeat 61 p) as [|e tl] eqn:Et.
    + injection IH as <-. cbn [b64_decode]. rewrite (sym_char url a Ha), (sym_char url b Hbb), (char_not_pad url c Hc), (sym_char url c Hc), (char_not_pad url d Hd), (sym_char url d Hd). reflexivity.
    + rewrite b64_decode_long, (sym_char url a Ha), (sym_char url b Hbb), (sym_char url c Hc), (sym_char url d Hd). cbn [ebind]. rewrite IH. reflexivity.
Qed.
Lemma decode_in url s bs : b64_decode url s = inr bs <-> b64_in url s bs.
Proof.
  split; [apply (decode_in_fwd url (length s)), Nat.le_refl|]. intros (syms & p & rest & H1 & H2 & -> & H4 & H5 & H6).
  exact (decode_in_bwd url (length syms) syms p bs rest (Nat.le_refl _) H1 H2 H4 H5 H6).
Qed.

(** what the URL-safe alphabet reads, the standard one reads too or stops at
    one of its two other symbols *)
Definition either (r : b64_err + bytes) (bs : bytes) : Prop := r = inr bs \/ r = inl (BadByte 45) \/ r = inl (BadByte 95).
Lemma url_sym c v : b64_sym true c = inr v -> b64_sym false c = inr v \/ b64_sym false c = inl (BadByte 45) \/ b64_sym false c = inl (BadByte 95).
Proof. intros H. apply sym_iff in H. destruct H as [H ->]. now apply sym_url. Qed.
Lemma url_step c v k bs : b64_sym true c = inr v -> either (k v) bs -> either (ebind (b64_sym false c) k) bs.
Proof. intros H E. destruct (url_sym c v H) as [->|[->| ->]]; [exact E|right; now left|right; now right]. Qed.
Lemma url_decode n : forall s bs, (length s <= n)%nat -> b64_decode true s = inr bs -> either (b64_decode false s) bs.
Proof.
  induction n as [|n IH]; intros s bs Hl H.
  { destruct s; [|cbn in Hl; lia]. left. exact H. }
  destruct s as [|a [|b [|c [|d [|e rest]]]]].
  - left. exact H.
  - cbn [b64_decode] in H. unfold ebind in H. destruct (b64_sym true a); discriminate H.
  - cbn [b64_decode] in *. destruct (b64_sym true a) as [er|p] eqn:Ea; [discriminate H|]. destruct (b64_sym true b) as [er|q] eqn:Eb; [discriminate H|].
    apply (url_step a p _ bs Ea), (url_step b q _ bs Eb). left. exact H.
  - cbn [b64_decode] in *. destruct (b64_sym true a) as [er|p] eqn:Ea; [discriminate H|]. destruct (b64_sym true b) as [er|q] eqn:Eb; [discriminate H|].
    apply (url_step a p _ bs Ea), (url_step b q _ bs Eb). cbn [ebind] in H. destruct (c =? 61); [left; exact H|].
    destruct (b64_sym true c) as [er|r] eqn:Er; [discriminate H|]. apply (url_step c r _ bs Er). left. exact H.
  - cbn [b64_decode] in *. destruct (b64_sym true a) as [er|p] eqn:Ea; [discriminate H|]. destruct (b64_sym true b) as [er|q] eqn:Eb; [discriminate H|].
    apply (url_step a p _ bs Ea), (url_step b q _ bs Eb). cbn [ebind] in H. destruct (c =? 61); [left; exact H|].
    destruct (b64_sym true c) as [er|r] eqn:Er; [discriminate H|]. apply (url_step c r _ bs Er). cbn [ebind] in H. destruct (d =? 61); [left; exact H|].
    destruct (b64_sym true d) as [er|x] eqn:Ex; [discriminate H|]. apply (url_step d x _ bs Ex). left. exact H.
  - rewrite b64_decode_long in *. destruct (b64_sym true a) as [er|p] eqn:Ea; [discriminate H|]. destruct (b64_sym true b) as [er|q] eqn:Eb; [discriminate H|].
    destruct (b64_sym true c) as [er|r] eqn:Er; [discriminate H|]. destruct (b64_sym true d) as [er|x] eqn:Ex; [discriminate H|]. cbn [ebind] in H.
    apply (url_step a p _ bs Ea), (url_step b q _ bs Eb), (url_step c r _ bs Er), (url_step d x _ bs Ex).
    destruct (b64_decode true (e :: rest)) as [er|more] eqn:Em; [discriminate H|]. cbn [ebind] in H.
    destruct (IH (e :: rest) more ltac:(cbn in Hl |- *; lia) Em) as [->|[->| ->]]; [left; exact H|right; now left|right; now right].
Qed.

Lemma de_bytes_iff s bs : de_bytes s = JOk bs <-> b64_says s bs.
Proof.
  rewrite b64_says_in. unfold de_bytes. split.
  - destruct (b64_decode false s) as [er|x] eqn:E0.
    + intros H. exists true. apply decode_in.
      assert (X : (match b64_decode true s with inr b => JOk b | inl _ => JErr XBase64 end) = JOk bs).
      { destruct er as [c|]; [|discriminate H]. destruct c as [|q]; [discriminate H|].
        do 7 (try (destruct q as [q|q|]; try solve [discriminate H | exact H])). }
      destruct (b64_decode true s); [discriminate X|]. congruence.
    + intros [= <-]. exists false. now apply decode_in.
  - intros [[|] H]; apply decode_in in H.
    + destruct (url_decode (length s) s bs (Nat.le_refl _) H) as [->|[->| ->]]; [reflexivity| |]; now rewrite H.
    + now rewrite H.
Qed.

(** ** Masks *)
Lemma camel_iff s : forall x, camel_to_snake s = Some x <-> camel s x.
Proof.
  induction s as [|c s IH]; intros x; cbn [camel_to_snake].
  - split; [intros [= <-]; constructor|intros H; inversion H; reflexivity].
  - unfold is_upper. destruct ((65 <=? c) && (c <=? 90)) eqn:E.
    + assert (L : ascii_lower c = c + 32) by (unfold ascii_lower; now rewrite E). rewrite L. split.
      * destruct (camel_to_snake s) as [y|] eqn:Ey; [|discriminate]. intros [= <-]. apply ca_upper; [lia|now apply IH].
      * intros H. inversion H as [|c' s' y Hc Hy|c' s' y Hc Hn Hy]; subst; [|lia]. apply IH in Hy. now rewrite Hy.
    + destruct (c =? 95) eqn:E2.
      * split; [discriminate|]. intros H. inversion H; subst; lia.
      * split.
        -- destruct (camel_to_snake s) as [y|] eqn:Ey; [|discriminate]. intros [= <-]. apply ca_other; [lia|lia|now apply IH].
        -- intros H. inversion H as [|c' s' y Hc Hy|c' s' y Hc Hn Hy]; subst; [lia|]. apply IH in Hy. now rewrite Hy.
Qed.
Lemma pieces_iff sep s l : pieces sep s l <-> l = split_on sep s.
Proof.
  split.
  - intros (H1 & -> & H2). symmetry. now apply split_join.
  - intros ->. destruct (split_on_spec sep s) as (H1 & H2 & H3). repeat split; auto.
Qed.
Lemma Forall2_iff {A B} (P Q : A -> B -> Prop) l r : (forall a b, P a b <-> Q a b) -> Forall2 P l r <-> Forall2 Q l r.
Proof. intros H. split; apply Forall2_impl; intros; now apply H. Qed.
Lemma path_iff s p : mask_path_in s = Some p <-> path_says s p.
Proof.
  unfold mask_path_in, path_says. split.
  - destruct (opt_list (map camel_to_snake (split_on 46 s))) as [l'|] eqn:E; [|discriminate]. intros [= <-].
    apply opt_list_map in E. exists (split_on 46 s), l'. split; [now apply pieces_iff|]. split; [|reflexivity].
    revert E. apply Forall2_impl. intros a b. apply camel_iff.
  - intros (l & l' & H1 & H2 & ->). apply pieces_iff in H1. subst l.
    assert (E : opt_list (map camel_to_snake (split_on 46 s)) = Some l').
    { apply opt_list_map. revert H2. apply Forall2_impl. intros a b. apply camel_iff. }
    now rewrite E.
Qed.
Lemma mask_iff s ps : mask_in s = Some ps <-> mask_says s ps.
Proof.
  unfold mask_in, mask_says.
  assert (F : forall l, filter (fun p : str => match p with [] => false | _ => true end) l = filter (fun p => negb (bytes_eqb p [])) l).
  { intros l. apply filter_ext. intros [|c p]; reflexivity. }
  rewrite F. rewrite opt_list_map. split.
  - intros H. exists (split_on 44 s). split; [now apply pieces_iff|]. revert H. apply Forall2_impl. intros a b. apply path_iff.
  - intros (l & H1 & H2). apply pieces_iff in H1. subst l. revert H2. apply Forall2_impl. intros a b. apply path_iff.
Qed.

(** ** Scalars *)
Lemma jret {A B} (r : jres A) (f : A -> B) v : (let* z := r in JOk (Some (f z))) = JOk (Some v) <-> exists z, r = JOk z /\ v = f z.
Proof.
  split.
  - destruct r as [z| | |]; try discriminate. cbn. intros [= <-]. eauto.
  - intros (z & -> & ->). reflexivity.
Qed.
Lemma jret_none {A B} (r : jres A) (f : A -> B) : (let* z := r in JOk (Some (f z))) = JOk None <-> False.
Proof. split; [|contradiction]. destruct r; discriminate. Qed.

Lemma key_iff kk s k : In kk [KInt32; KSint32; KSfixed32; KInt64; KSint64; KSfixed64; KUint32; KFixed32; KUint64; KFixed64; KBool; KString] ->
  de_key kk s = JOk k <-> key_says kk s k.
Proof.
  assert (G : forall lo hi (mk : Z -> mapkey), (match int_from_str lo hi s with Some z => JOk (mk z) | None => JErr XKey end) = JOk k <->
    exists z, int_text (lo <? 0)%Z s z /\ (lo <= z <= hi)%Z /\ k = mk z).
  { intros lo hi mk. destruct (int_from_str lo hi s) as [z|] eqn:E.
    - apply int_from_str_iff in E as [E1 E2]. split; [intros [= <-]; eauto|]. intros (z' & Z1 & Z2 & ->).
      assert (int_from_str lo hi s = Some z') by (now apply int_from_str_iff). assert (int_from_str lo hi s = Some z) by (now apply int_from_str_iff). congruence.
    - split; [discriminate|]. intros (z' & Z1 & Z2 & ->). assert (int_from_str lo hi s = Some z') by (now apply int_from_str_iff). congruence. }
  assert (I32 : forall kk, In kk [KInt32; KSint32; KSfixed32] -> de_key kk s = JOk k <-> key_says kk s k).
  { intros k0 Hk. assert (X : de_key k0 s = match int_from_str i32_lo i32_hi s with Some z => JOk (MKI32 z) | None => JErr XKey end).
    { destruct Hk as [<-|[<-|[<-|[]]]]; reflexivity. }
    rewrite X, G. split.
    - intros (z & Z1 & Z2 & ->). apply ks_i32; [exact Hk|exact Z1|unfold i32_lo, i32_hi in Z2; lia].
    - intros H. inversion H; subst; try (solve [cbn in *; intuition congruence]). exists z. split; [assumption|]. split; [|reflexivity]. unfold i32_lo, i32_hi. lia. }
  assert (I64 : forall kk, In kk [KInt64; KSint64; KSfixed64] -> de_key kk s = JOk k <-> key_says kk s k).
  { intros k0 Hk. assert (X : de_key k0 s = match int_from_str i64_lo i64_hi s with Some z => JOk (MKI64 z) | None => JErr XKey end).
    { destruct Hk as [<-|[<-|[<-|[]]]]; reflexivity. }
    rewrite X, G. split.
    - intros (z & Z1 & Z2 & ->). apply ks_i64; [exact Hk|exact Z1|unfold i64_lo, i64_hi in Z2; lia].
    - intros H. inversion H; subst; try (solve [cbn in *; intuition congruence]). exists z. split; [assumption|]. split; [|reflexivity]. unfold i64_lo, i64_hi. lia. }
  assert (U32 : forall kk, In kk [KUint32; KFixed32] -> de_key kk s = JOk k <-> key_says kk s k).
  { intros k0 Hk. assert (X : de_key k0 s = match int_from_str 0 u32_hi s with Some z => JOk (MKU32 (Z.to_N z)) | None => JErr XKey end).
    { destruct Hk as [<-|[<-|[]]]; reflexivity. }
    rewrite X, G. split.
    - intros (z & Z1 & Z2 & ->). apply ks_u32; [exact Hk| |unfold u32_hi in Z2; lia]. rewrite Z2N.id by lia. exact Z1.
    - intros H. inversion H; subst; try (solve [cbn in *; intuition congruence]). exists (Z.of_N n). split; [assumption|]. rewrite N2Z.id. split; [|reflexivity]. unfold u32_hi. lia. }
  assert (U64 : forall kk, In kk [KUint64; KFixed64] -> de_key kk s = JOk k <-> key_says kk s k).
  { intros k0 Hk. assert (X : de_key k0 s = match int_from_str 0 u64_hi s with Some z => JOk (MKU64 (Z.to_N z)) | None => JErr XKey end).
    { destruct Hk as [<-|[<-|[]]]; reflexivity. }
    rewrite X, G. split.
    - intros (z & Z1 & Z2 & ->). apply ks_u64; [exact Hk| |unfold u64_hi in Z2; lia]. rewrite Z2N.id by lia. exact Z1.
    - intros H. inversion H; subst; try (solve [cbn in *; intuition congruence]). exists (Z.of_N n). split; [assumption|]. rewrite N2Z.id. split; [|reflexivity]. unfold u64_hi. lia. }
  cbn [In]. intros H. repeat (destruct H as [<-|H]); try contradiction H.
  1-3: apply I32; cbn; tauto. 1-3: apply I64; cbn; tauto. 1-2: apply U32; cbn; tauto. 1-2: apply U64; cbn; tauto.
  - cbn [de_key]. destruct (bytes_eqb s (s2b "true")) eqn:E1.
    { apply bytes_eqb_eq in E1. subst s. split; [intros [= <-]; constructor|]. intros H. inversion H; subst; try (solve [cbn in *; intuition congruence]); reflexivity. }
    destruct (bytes_eqb s (s2b "false")) eqn:E2.
    { apply bytes_eqb_eq in E2. subst s. split; [intros [= <-]; constructor|]. intros H. inversion H; subst; try (solve [cbn in *; intuition congruence]); reflexivity. }
    split; [discriminate|]. intros H. inversion H; subst; try (solve [cbn in *; intuition congruence]).
    + rewrite bytes_eqb_refl in E1. discriminate.
    + rewrite bytes_eqb_refl in E2. discriminate.
  - cbn [de_key]. split; [intros [= <-]; constructor|]. intros H. inversion H; subst; try (solve [cbn in *; intuition congruence]); reflexivity.
Qed.

Section Scalars.
  Variables (t : tables) (deny : bool).

  Lemma enum_iff e j o : de_enum t deny e j = JOk o <->
    (exists v, o = Some v /\ scalar_says t (KEnum e) j v) \/ (o = None /\ unknown_name t deny (KEnum e) j).
  Proof.
    assert (No : forall j v, scalar_says t (KEnum e) j v -> match j with JNull | JStr _ | JInt _ => True | _ => False end).
    { intros j' v H. inversion H; subst; try exact I; cbn in *; intuition discriminate. }
    unfold de_enum. destruct (is_null_enum t e) eqn:En.
    - destruct j; try (split; [discriminate|intros [(v & _ & H)|(_ & _ & ? & ? & _ & [=] & _)]; apply No in H; contradiction]).
      + split; [intros [= <-]; left; eexists; split; [reflexivity|now apply ss_null]|].
        intros [(v & -> & H)|(_ & _ & ? & ? & _ & [=] & _)]. inversion H; subst; try (solve [cbn in *; intuition congruence]); reflexivity.
      + split; [discriminate|]. intros [(v & -> & H)|(_ & _ & ? & ? & _ & [=] & _)]. inversion H; subst; try (solve [cbn in *; intuition congruence]); congruence.
      + destruct (bytes_eqb s (s2b "NULL_VALUE")) eqn:Es.
        * apply bytes_eqb_eq in Es. subst s. split; [intros [= <-]; left; eexists; split; [reflexivity|now apply ss_null_name]|].
          intros [(v & -> & H)|(_ & _ & e' & s' & [= <-] & [= <-] & Hn)].
          -- inversion H; subst; try (solve [cbn in *; intuition congruence]); first [congruence|reflexivity].
          -- rewrite En in Hn. exfalso. apply Hn. reflexivity.
        * assert (Hne : s <> s2b "NULL_VALUE") by (intros ->; rewrite bytes_eqb_refl in Es; discriminate).
          assert (N0 : forall v, ~ scalar_says t (KEnum e) (JStr s) v).
          { intros v H. inversion H; subst; try (solve [cbn in *; intuition congruence]); congruence. }
          destruct deny eqn:Ed.
          -- split; [discriminate|]. intros [(v & _ & H)|(_ & [=] & _)]. now apply N0 in H.
          -- split; [intros [= <-]|intros [(v & _ & H)|(-> & _)]; [now apply N0 in H|reflexivity]]. right. split; [reflexivity|]. split; [reflexivity|].
             exists e, s. rewrite En. auto.
    - destruct j; try (split; [discriminate|intros [(v & _ & H)|(_ & _ & ? & ? & _ & [=] & _)]; apply No in H; contradiction]).
      + split; [discriminate|]. intros [(v & -> & H)|(_ & _ & ? & ? & _ & [=] & _)]. inversion H; subst; try (solve [cbn in *; intuition congruence]); congruence.
      + destruct ((i32_lo <=? z)%Z && (z <=? i32_hi)%Z) eqn:Ez; unfold i32_lo, i32_hi in Ez.
        * split; [intros [= <-]; left; eexists; split; [reflexivity|apply ss_enum_number; [exact En|lia]]|].
          intros [(v & -> & H)|(_ & _ & ? & ? & _ & [=] & _)]. inversion H; subst; try (solve [cbn in *; intuition congruence]); reflexivity.
        * split; [discriminate|]. intros [(v & -> & H)|(_ & _ & ? & ? & _ & [=] & _)]. inversion H; subst; try (solve [cbn in *; intuition congruence]); lia.
      + destruct (enum_number t e s) as [z|] eqn:Es.
        * split; [intros [= <-]; left; eexists; split; [reflexivity|now apply ss_enum_name]|].
          intros [(v & -> & H)|(_ & _ & e' & s' & [= <-] & [= <-] & Hn)].
          -- inversion H; subst; try (solve [cbn in *; intuition congruence]); congruence.
          -- rewrite En in Hn. congruence.
        * assert (N0 : forall v, ~ scalar_says t (KEnum e) (JStr s) v).
          { intros v H. inversion H; subst; try (solve [cbn in *; intuition congruence]); congruence. }
          destruct deny eqn:Ed.
          -- split; [discriminate|]. intros [(v & _ & H)|(_ & [=] & _)]. now apply N0 in H.
          -- split; [intros [= <-]|intros [(v & _ & H)|(-> & _)]; [now apply N0 in H|reflexivity]]. right. split; [reflexivity|]. split; [reflexivity|].
             exists e, s. rewrite En. auto.
  Qed.

  Definition j_f64_ok (j : json) : Prop := forall b, j = JF64 b -> b < 2 ^ 64.
  Lemma scalar_iff k j o : kind_msg k = None -> j_f64_ok j ->
    de_scalar t deny k j = JOk o <-> (exists v, o = Some v /\ scalar_says t k j v) \/ (o = None /\ unknown_name t deny k j).
  Proof.
    intros Hk Hj.
    assert (Un : (forall e, k <> KEnum e) -> ~ unknown_name t deny k j).
    { intros H (_ & e & _ & -> & _). now apply (H e). }
    assert (G : forall A (r : jres A) (f : A -> value) (P : A -> Prop), (forall e, k <> KEnum e) -> (forall a, r = JOk a <-> P a) ->
      (forall v, scalar_says t k j v <-> exists a, P a /\ v = f a) ->
      (let* z := r in JOk (Some (f z))) = JOk o <-> (exists v, o = Some v /\ scalar_says t k j v) \/ (o = None /\ unknown_name t deny k j)).
    { intros A r f P Hne HP HS. destruct o as [v|].
      - rewrite jret. split.
        + intros (z & Hz & ->). left. eexists. split; [reflexivity|]. apply HS. exists z. split; [now apply HP|reflexivity].
        + intros [(v' & [= <-] & H)|([=] & _)]. apply HS in H. destruct H as (a & Ha & ->). exists a. split; [now apply HP|reflexivity].
      - rewrite jret_none. split; [contradiction|]. intros [(v' & [=] & _)|(_ & H)]. now apply Un in H. }
    destruct k; cbn [de_scalar]; try discriminate Hk.
    - apply (G _ _ _ (fun b => f64_says j b)); [discriminate|apply de_f64_iff|]. intros v. split.
      + intros H. inversion H; subst; try (solve [cbn in *; intuition congruence]); eauto.
      + intros (a & Ha & ->). now constructor.
    - apply (G _ _ _ (fun b => f32_says j b)); [discriminate|apply de_f32_iff|]. intros v. split.
      + intros H. inversion H; subst; try (solve [cbn in *; intuition congruence]); eauto.
      + intros (a & Ha & ->). now constructor.
    - apply (G _ _ _ (fun z => int_says (- 2 ^ 31) (2 ^ 31 - 1) false j z)); [discriminate|intros a; now apply de_int_iff|]. intros v. split.
      + intros H. inversion H; subst; try (solve [cbn in *; intuition congruence]). eauto.
      + intros (a & Ha & ->). apply ss_i32; [cbn; tauto|exact Ha].
    - apply (G _ _ _ (fun z => int_says (- 2 ^ 63) (2 ^ 63 - 1) true j z)); [discriminate|intros a; now apply de_int_iff|]. intros v. split.
      + intros H. inversion H; subst; try (solve [cbn in *; intuition congruence]). eauto.
      + intros (a & Ha & ->). apply ss_i64; [cbn; tauto|exact Ha].
    - apply (G _ _ _ (fun z => int_says 0 (2 ^ 32 - 1) false j z)); [discriminate|intros a; now apply de_int_iff|]. intros v. split.
      + intros H. inversion H; subst; try (solve [cbn in *; intuition congruence]). eauto.
      + intros (a & Ha & ->). apply ss_u32; [cbn; tauto|exact Ha].
    - apply (G _ _ _ (fun z => int_says 0 (2 ^ 64 - 1) true j z)); [discriminate|intros a; now apply de_int_iff|]. intros v. split.
      + intros H. inversion H; subst; try (solve [cbn in *; intuition congruence]). eauto.
      + intros (a & Ha & ->). apply ss_u64; [cbn; tauto|exact Ha].
    - apply (G _ _ _ (fun z => int_says (- 2 ^ 31) (2 ^ 31 - 1) false j z)); [discriminate|intros a; now apply de_int_iff|]. intros v. split.
      + intros H. inversion H; subst; try (solve [cbn in *; intuition congruence]). eauto.
      + intros (a & Ha & ->). apply ss_i32; [cbn; tauto|exact Ha].
    - apply (G _ _ _ (fun z => int_says (- 2 ^ 63) (2 ^ 63 - 1) true j z)); [discriminate|intros a; now apply de_int_iff|]. intros v. split.
      + intros H. inversion H; subst; try (solve [cbn in *; intuition congruence]). eauto.
      + intros (a & Ha & ->). apply ss_i64; [cbn; tauto|exact Ha].
    - apply (G _ _ _ (fun z => int_says 0 (2 ^ 32 - 1) false j z)); [discriminate|intros a; now apply de_int_iff|]. intros v. split.
      + intros H. inversion H; subst; try (solve [cbn in *; intuition congruence]). eauto.
      + intros (a & Ha & ->). apply ss_u32; [cbn; tauto|exact Ha].
    - apply (G _ _ _ (fun z => int_says 0 (2 ^ 64 - 1) true j z)); [discriminate|intros a; now apply de_int_iff|]. intros v. split.
      + intros H. inversion H; subst; try (solve [cbn in *; intuition congruence]). eauto.
      + intros (a & Ha & ->). apply ss_u64; [cbn; tauto|exact Ha].
    - apply (G _ _ _ (fun z => int_says (- 2 ^ 31) (2 ^ 31 - 1) false j z)); [discriminate|intros a; now apply de_int_iff|]. intros v. split.
      + intros H. inversion H; subst; try (solve [cbn in *; intuition congruence]). eauto.
      + intros (a & Ha & ->). apply ss_i32; [cbn; tauto|exact Ha].
    - apply (G _ _ _ (fun z => int_says (- 2 ^ 63) (2 ^ 63 - 1) true j z)); [discriminate|intros a; now apply de_int_iff|]. intros v. split.
      + intros H. inversion H; subst; try (solve [cbn in *; intuition congruence]). eauto.
      + intros (a & Ha & ->). apply ss_i64; [cbn; tauto|exact Ha].
    - assert (X : (match j with JBool b => JOk (Some (VBool b)) | _ => JErr XType end) =
        (let* z := match j with JBool b => JOk b | _ => JErr XType end in JOk (Some (VBool z)))) by (destruct j; reflexivity). rewrite X.
      apply (G _ _ _ (fun b => j = JBool b)); [discriminate| |].
      + intros a. destruct j; split; intros H; try discriminate H; try (injection H as ->); reflexivity.
      + intros v. split.
        * intros H. inversion H; subst; try (solve [cbn in *; intuition congruence]). eauto.
        * intros (a & -> & ->). constructor.
    - assert (X : (match j with JStr s => JOk (Some (VString s)) | _ => JErr XType end) =
        (let* z := match j with JStr s => JOk s | _ => JErr XType end in JOk (Some (VString z)))) by (destruct j; reflexivity). rewrite X.
      apply (G _ _ _ (fun s => j = JStr s)); [discriminate| |].
      + intros a. destruct j; split; intros H; try discriminate H; try (injection H as ->); reflexivity.
      + intros v. split.
        * intros H. inversion H; subst; try (solve [cbn in *; intuition congruence]). eauto.
        * intros (a & -> & ->). constructor.
    - assert (X : (match j with JStr s => let* b := de_bytes s in JOk (Some (VBytes b)) | _ => JErr XType end) =
        (let* z := match j with JStr s => de_bytes s | _ => JErr XType end in JOk (Some (VBytes z)))) by (destruct j; reflexivity). rewrite X.
      apply (G _ _ _ (fun b => exists s, j = JStr s /\ b64_says s b)); [discriminate| |].
      + intros a. destruct j; split; try discriminate; try (intros (? & [=] & _); fail).
        * intros H. apply de_bytes_iff in H. eauto.
        * intros (s' & Hs & H). injection Hs as ->. now apply de_bytes_iff.
      + intros v. split.
        * intros H. inversion H; subst; try (solve [cbn in *; intuition congruence]). eauto.
        * intros (a & (s & -> & Hs) & ->). now constructor.
    - apply enum_iff.
  Qed.
End Scalars.
