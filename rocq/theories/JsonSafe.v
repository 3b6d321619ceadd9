(** Reading JSON comes back with a valid message or an error. *)
From Coq Require Import String.
From Verif Require Import Base BaseProofs Wire WireProofs LoopProofs Unknown UnknownProofs Value Descr
  Fields Codec DescrOk DescrProofs FieldsProofs LenProofs MergeProofs RoundSpec RoundProofs EncBytes
  Float TextLex TextFormat TextParse TextSafe Prop_Decode Json JsonSer JsonDe JsonMask JsonWkt.
Open Scope list_scope.
Open Scope N_scope.

(** an acceptable value, or an error *)
Definition jgood {A} (P : A -> Prop) (r : jres A) : Prop :=
  match r with JOk a => P a | JErr _ => True | JPanic | JFuel => False end.
Lemma jgood_bind {A B} (P : A -> Prop) (Q : B -> Prop) r k :
  jgood P r -> (forall a, P a -> jgood Q (k a)) -> jgood Q (jbind r k).
Proof. destruct r; cbn; auto. Qed.
Lemma jgood_impl {A} (P Q : A -> Prop) r : jgood P r -> (forall a, P a -> Q a) -> jgood Q r.
Proof. destruct r; cbn; auto. Qed.

Ltac allf := repeat (apply Forall_cons; [lia|]); apply Forall_nil.

(** ** UTF-8, one character at a time *)
Lemma utf8_ind (P : bytes -> Prop) : P [] ->
  (forall c r, c < 128 -> utf8_valid r = true -> P r -> P (c :: r)) ->
  (forall u r, Forall (fun c => 128 <= c) u -> u <> [] -> (forall x, utf8_valid x = true -> utf8_valid (u ++ x) = true) ->
     utf8_valid r = true -> P r -> P (u ++ r)) ->
  forall s, utf8_valid s = true -> P s.
Proof.
  intros P0 P1 P2. assert (G : forall n s, (length s <= n)%nat -> utf8_valid s = true -> P s).
  2: { intros s. apply (G (length s)). lia. }
  induction n as [|n IH]; intros s Hn Hs.
  { destruct s; [exact P0|cbn in Hn; lia]. }
  destruct s as [|b0 r0]; [exact P0|]. cbn [length] in Hn. pose proof Hs as Hs'. cbn [utf8_valid] in Hs.
  unfold cont, in_range in Hs. destruct (N.ltb_spec b0 128) as [L|L].
  { apply P1; auto. apply IH; [lia|exact Hs]. }
  destruct ((194 <=? b0) && (b0 <=? 223)) eqn:E1.
  { destruct r0 as [|b1 r1]; [discriminate|]. cbn [length] in Hn. apply andb_true_iff in Hs. destruct Hs as [Hb Hs].
    apply (P2 [b0; b1] r1); [allf|discriminate| |exact Hs|apply IH; [lia|exact Hs]].
    intros x Hx. cbn [app utf8_valid]. unfold cont, in_range. rewrite E1. destruct (N.ltb_spec b0 128); [lia|].
    rewrite Hb. exact Hx. }
  destruct ((224 <=? b0) && (b0 <=? 239)) eqn:E2.
  { destruct r0 as [|b1 [|b2 r2]]; try discriminate. cbn [length] in Hn. apply andb_true_iff in Hs. destruct Hs as [Hb Hs].
    pose proof Hb as Hb'. apply andb_true_iff in Hb. destruct Hb as [Hb1 Hb2].
    assert (128 <= b1) by (destruct (b0 =? 224); [lia|]; destruct (b0 =? 237); unfold in_range in *; lia).
    apply (P2 [b0; b1; b2] r2); [unfold in_range in *; allf|discriminate| |exact Hs|apply IH; [lia|exact Hs]].
    intros x Hx. cbn [app utf8_valid]. unfold cont, in_range in *. rewrite E1, E2. destruct (N.ltb_spec b0 128); [lia|].
    rewrite Hb'. exact Hx. }
  destruct ((240 <=? b0) && (b0 <=? 244)) eqn:E3; [|discriminate].
  destruct r0 as [|b1 [|b2 [|b3 r3]]]; try discriminate. cbn [length] in Hn. apply andb_true_iff in Hs. destruct Hs as [Hb Hs].
  pose proof Hb as Hb'. apply andb_true_iff in Hb. destruct Hb as [Hb Hb3]. apply andb_true_iff in Hb. destruct Hb as [Hb1 Hb2].
  assert (128 <= b1) by (destruct (b0 =? 240); [lia|]; destruct (b0 =? 244); unfold in_range in *; lia).
  apply (P2 [b0; b1; b2; b3] r3); [unfold in_range in *; allf|discriminate| |exact Hs|apply IH; [lia|exact Hs]].
  intros x Hx. cbn [app utf8_valid]. unfold cont, in_range in *. rewrite E1, E2, E3. destruct (N.ltb_spec b0 128); [lia|].
  rewrite Hb'. exact Hx.
Qed.
Lemma utf8_ascii c r : c < 128 -> utf8_valid (c :: r) = utf8_valid r.
Proof. intros H. cbn [utf8_valid]. destruct (N.ltb_spec c 128); [reflexivity|lia]. Qed.
Lemma utf8_app a b : utf8_valid a = true -> utf8_valid b = true -> utf8_valid (a ++ b) = true.
Proof.
  intros Ha Hb. revert a Ha. apply utf8_ind; [exact Hb| |].
  - intros c r Hc _ IH. cbn [app]. now rewrite utf8_ascii.
  - intros u r _ _ Hu _ IH. rewrite <- app_assoc. now apply Hu.
Qed.
Definition str_ok (s : bytes) : Prop := bytes_ok s /\ utf8_valid s = true.
Lemma str_ok_nil : str_ok [].
Proof. split; [constructor|reflexivity]. Qed.
Lemma str_ok_app a b : str_ok a -> str_ok b -> str_ok (a ++ b).
Proof. intros [A1 A2] [B1 B2]. split; [apply bytes_ok_app; auto|apply utf8_app; auto]. Qed.
Lemma str_ok_ascii c r : c < 128 -> str_ok r -> str_ok (c :: r).
Proof. intros H [A B]. split; [constructor; [lia|exact A]|rewrite utf8_ascii; auto]. Qed.

Lemma split_high sep u r : sep < 128 -> Forall (fun c => 128 <= c) u -> u <> [] ->
  exists a l, split_on sep r = a :: l /\ split_on sep (u ++ r) = (u ++ a) :: l.
Proof.
  intros Hsep Hu Hne. assert (exists a l, split_on sep r = a :: l) as (a & l & E).
  { destruct r as [|c r]; cbn; [eexists; eexists; reflexivity|]. destruct (c =? sep); [eexists; eexists; reflexivity|].
    destruct (split_on sep r); eexists; eexists; reflexivity. }
  exists a, l. split; [exact E|]. clear Hne. induction Hu as [|c u Hc Hu IH]; [exact E|].
  cbn [app split_on]. destruct (N.eqb_spec c sep); [lia|]. rewrite IH. reflexivity.
Qed.
Lemma split_ok sep s : sep < 128 -> str_ok s -> Forall str_ok (split_on sep s).
Proof.
  intros Hsep [Hb Hu]. revert Hb. revert s Hu. apply (utf8_ind (fun s => bytes_ok s -> Forall str_ok (split_on sep s))).
  - intros _. repeat constructor.
  - intros c r Hc _ IH Hb. inversion Hb as [|? ? Hc2 Hr]; subst. specialize (IH Hr). cbn [split_on].
    destruct (c =? sep); [constructor; [apply str_ok_nil|exact IH]|].
    destruct (split_on sep r) as [|a l]; [repeat constructor; auto; rewrite utf8_ascii; auto|].
    inversion IH; subst. constructor; [now apply str_ok_ascii|assumption].
  - intros u r Hu Hne Hx _ IH Hb. apply bytes_ok_app in Hb. destruct Hb as [Hb1 Hb2]. specialize (IH Hb2).
    destruct (split_high sep u r Hsep Hu Hne) as (a & l & E1 & E2). rewrite E2. rewrite E1 in IH. inversion IH as [|? ? [A1 A2] HL]; subst.
    constructor; [|exact HL]. split; [apply bytes_ok_app; auto|apply Hx, A2].
Qed.
Lemma camel_ok s x : str_ok s -> camel_to_snake s = Some x -> str_ok x.
Proof.
  intros [Hb Hu]. revert x Hb. revert s Hu.
  apply (utf8_ind (fun s => forall x, bytes_ok s -> camel_to_snake s = Some x -> str_ok x)).
  - intros x _ H. injection H as <-. apply str_ok_nil.
  - intros c r Hc _ IH x Hb H. inversion Hb as [|? ? Hc2 Hr]; subst. cbn [camel_to_snake] in H.
    destruct (camel_to_snake r) as [y|] eqn:Ey.
    2: { destruct (is_upper c); [discriminate|]. destruct (c =? 95); discriminate. }
    specialize (IH y Hr eq_refl). cbn [option_map] in H. destruct (is_upper c) eqn:Eu.
    + injection H as <-. apply str_ok_ascii; [lia|]. apply str_ok_ascii; [|exact IH].
      unfold is_upper in Eu. unfold ascii_lower. rewrite Eu. lia.
    + destruct (c =? 95); [discriminate|]. injection H as <-. now apply str_ok_ascii.
  - intros u r Hu Hne Hx _ IH x Hb H. apply bytes_ok_app in Hb. destruct Hb as [Hb1 Hb2].
    assert (exists y, camel_to_snake r = Some y /\ x = u ++ y) as (y & Ey & ->).
    { clear Hne Hx IH Hb1. revert x H. induction Hu as [|c u Hc Hu IHu]; intros x H; [exists x; auto|].
      cbn [app camel_to_snake] in H. unfold is_upper in H. destruct ((65 <=? c) && (c <=? 90)) eqn:E; [lia|].
      destruct (N.eqb_spec c 95); [lia|]. destruct (camel_to_snake (u ++ r)) as [z|]; [|discriminate]. cbn in H. injection H as <-.
      destruct (IHu z eq_refl) as (y & Ey & ->). exists y. auto. }
    destruct (IH y Hb2 Ey) as [Y1 Y2]. split; [apply bytes_ok_app; auto|apply Hx, Y2].
Qed.
Lemma opt_list_all {A B} (g : A -> option B) (P : A -> Prop) (Q : B -> Prop) l y :
  (forall a b, P a -> g a = Some b -> Q b) -> Forall P l -> opt_list (map g l) = Some y -> Forall Q y.
Proof.
  intros H Hl. revert y. induction Hl as [|a l Ha Hl IH]; intros y Hy; cbn in Hy.
  - injection Hy as <-. constructor.
  - destruct (g a) as [b|] eqn:E; [|discriminate]. destruct (opt_list (map g l)) as [z|]; [|discriminate].
    injection Hy as <-. constructor; eauto.
Qed.
Lemma join_ok sep l : sep < 128 -> Forall str_ok l -> str_ok (join_with sep l).
Proof.
  intros Hs H. induction H as [|a l Ha Hl IH]; [apply str_ok_nil|]. cbn [join_with]. destruct l as [|b l]; [exact Ha|].
  apply str_ok_app; [exact Ha|]. now apply str_ok_ascii.
Qed.
Lemma mask_in_ok s ps : str_ok s -> mask_in s = Some ps -> Forall str_ok ps.
Proof.
  intros Hs H. unfold mask_in in H.
  apply (opt_list_all mask_path_in str_ok str_ok _ _) in H; [exact H| |].
  - intros a b Ha Hb. unfold mask_path_in in Hb. destruct (opt_list (map camel_to_snake (split_on 46 a))) as [y|] eqn:Ey; [|discriminate Hb]. cbn in Hb. injection Hb as <-.
    apply join_ok; [lia|]. eapply (opt_list_all camel_to_snake str_ok str_ok); [|apply (split_ok 46 a); [lia|exact Ha]|exact Ey].
    intros c d. apply camel_ok.
  - apply Forall_forall. intros x Hx. apply filter_In in Hx. pose proof (split_ok 44 s ltac:(lia) Hs) as F.
    rewrite Forall_forall in F. apply F, Hx.
Qed.

(** ** Numbers *)
Lemma int_from_str_range lo hi s z : int_from_str lo hi s = Some z -> (lo <= z <= hi)%Z.
Proof.
  unfold int_from_str. assert (C : forall y, (if (lo <=? y)%Z && (y <=? hi)%Z then Some y else None) = Some z -> (lo <= z <= hi)%Z).
  { intros y. destruct ((lo <=? y)%Z && (y <=? hi)%Z) eqn:E; [|discriminate]. intros H. injection H as <-. lia. }
  destruct s as [|c r]; [discriminate|].
  destruct (N.eq_dec c 43) as [->|N1]; [destruct (digits_okb r); [apply C|discriminate]|].
  destruct (N.eq_dec c 45) as [->|N2]; [destruct ((lo <? 0)%Z && digits_okb r); [apply C|discriminate]|].
  replace (match c with 43 => _ | 45 => _ | _ => _ end) with
    (if digits_okb (c :: r) then (if (lo <=? Z.of_N (dec_value (c :: r)))%Z && (Z.of_N (dec_value (c :: r)) <=? hi)%Z
                                   then Some (Z.of_N (dec_value (c :: r))) else None) else None).
  - destruct (digits_okb (c :: r)); [apply C|discriminate].
  - destruct c as [|p]; [reflexivity|]. do 6 (destruct p as [p|p|]; try reflexivity); congruence.
Qed.
Lemma de_int_range lo hi fhi j : (lo <= hi)%Z -> jgood (fun z => (lo <= z <= hi)%Z) (de_int lo hi fhi j).
Proof.
  intros Hlh. assert (F : forall b, jgood (fun z => (lo <= z <= hi)%Z)
    match f64_int b with None => JErr XNotInteger
    | Some z => if (z <? lo)%Z || (fhi <? z)%Z then JErr XRange else JOk (Z.max lo (Z.min hi z)) end).
  { intros b. destruct (f64_int b); [|exact I]. destruct (_ || _); cbn; [exact I|lia]. }
  destruct j; cbn [de_int]; try exact I; try apply F.
  - destruct ((lo <=? z)%Z && (z <=? hi)%Z) eqn:E; cbn; [lia|exact I].
  - destruct (int_from_str lo hi s) eqn:E; [|exact I]. cbn. eapply int_from_str_range, E.
Qed.
Lemma round64_bound n d : round64 n d <= inf64.
Proof. apply round_bits_bound. Qed.
Lemma round32_bound n d : round32 n d <= inf32.
Proof. apply round_bits_bound. Qed.
Lemma dec_parse_bound round b s : (forall n d, round n d <= b) -> dec_parse round s <= b.
Proof.
  intros H. unfold dec_parse, dec_round. destruct (span is_digit s) as [i r1].
  destruct (match r1 with 46 :: r => span is_digit r | _ => ([], r1) end) as [f r2].
  repeat match goal with |- context [if ?c then _ else _] => destruct c end; try apply H; lia.
Qed.
Lemma float_from_str_bound round inf nan sign s b : (forall n d, round n d <= inf) -> inf <= nan ->
  float_from_str round inf nan sign s = Some b -> b <= sign + nan.
Proof.
  intros Hr Hin H. unfold float_from_str in H.
  set (mag := fun r => let l := map ascii_lower r in
    if bytes_eqb l (s2b "inf") || bytes_eqb l (s2b "infinity") then Some inf
    else if bytes_eqb l (s2b "nan") then Some nan
    else if decimal_okb r then Some (dec_parse round r) else None) in H.
  assert (M : forall r x, mag r = Some x -> x <= nan).
  { intros r x. unfold mag. cbv zeta.
    destruct (bytes_eqb (map ascii_lower r) (s2b "inf") || bytes_eqb (map ascii_lower r) (s2b "infinity"));
      [intros E; assert (inf = x) by congruence; lia|].
    destruct (bytes_eqb (map ascii_lower r) (s2b "nan")); [intros E; assert (nan = x) by congruence; lia|].
    destruct (decimal_okb r); [|discriminate].
    intros E. assert (dec_parse round r = x) as <- by congruence. pose proof (dec_parse_bound round inf r Hr). lia. }
  destruct s as [|c r].
  { apply M in H. lia. }
  destruct (N.eq_dec c 43) as [->|N1]; [apply M in H; lia|].
  destruct (N.eq_dec c 45) as [->|N2].
  { change (option_map (fun b => sign + b) (mag r) = Some b) in H. destruct (mag r) as [y|] eqn:E; [|discriminate H].
    cbn in H. injection H as <-. apply M in E. lia. }
  assert (X : mag (c :: r) = Some b).
  { rewrite <- H. destruct c as [|p]; [reflexivity|]. do 6 (destruct p as [p|p|]; try reflexivity); congruence. }
  apply M in X. lia.
Qed.
Lemma f32_to_f64_bound b : f32_to_f64 b < two64.
Proof.
  unfold f32_to_f64. assert (H : forall x, x <= nan64 -> (if b <? sign32 then 0 else sign64) + x < two64).
  { intros x Hx. unfold two64, nan64, sign64 in *. destruct (b <? sign32); lia. }
  pose proof (fun n d => round64_bound n d) as R. cbv zeta.
  destruct (_ =? 255). { destruct (_ =? 0); apply H; unfold inf64, nan64; lia. }
  destruct (0 <=? _)%Z; apply H; eapply N.le_trans; try apply R; unfold inf64, nan64; lia.
Qed.
Lemma int_to_f64_bound z : int_to_f64 z < two64.
Proof.
  unfold int_to_f64. pose proof (round64_bound (Z.abs_N z) 1). unfold two64, inf64, sign64 in *. destruct (z <? 0)%Z; lia.
Qed.
Lemma int_to_f32_bound z : int_to_f32 z < two32.
Proof.
  unfold int_to_f32. pose proof (round32_bound (Z.abs_N z) 1). unfold two32, inf32, sign32 in *. destruct (z <? 0)%Z; lia.
Qed.
Lemma special_float_bound inf nan sign s : inf <= nan -> jgood (fun b => b <= sign + nan) (special_float inf nan sign s).
Proof.
  intros H. unfold special_float. repeat (destruct (bytes_eqb _ _); [cbn; lia|]). exact I.
Qed.

(** a document made of Rust values *)
Fixpoint json_okb (nulls : bool) (j : json) : bool :=
  match j with
  | JF32 b => u32_ok b
  | JF64 b => u64_ok b
  | JStr s => bytes_okb s && utf8_valid s
  | JArr l => forallb (json_okb nulls) l
  | JObj l => forallb (fun kv => bytes_okb (fst kv) && utf8_valid (fst kv) &&
                                 (nulls || match snd kv with JNull => false | _ => true end) &&
                                 json_okb nulls (snd kv)) l
  | _ => true
  end.

Lemma de_f64_good n j : json_okb n j = true -> jgood (fun b => u64_ok b = true) (de_f64 j).
Proof.
  intros H. destruct j; cbn [de_f64]; try exact I; cbn [jgood].
  - unfold u64_ok. apply N.ltb_lt, int_to_f64_bound.
  - unfold u64_ok. apply N.ltb_lt, f32_to_f64_bound.
  - exact H.
  - destruct (float_from_str round64 inf64 nan64 sign64 s) as [b|] eqn:E.
    + apply float_from_str_bound in E; [|apply round64_bound|unfold inf64, nan64; lia]. cbn.
      unfold u64_ok, two64, sign64, nan64 in *. lia.
    + eapply jgood_impl; [apply special_float_bound; unfold inf64, nan64; lia|]. intros b. cbn.
      unfold u64_ok, two64, sign64, nan64 in *. lia.
Qed.
Lemma de_f32_good n j : json_okb n j = true -> jgood (fun b => u32_ok b = true) (de_f32 j).
Proof.
  intros H. destruct j; cbn [de_f32]; try exact I; cbn [jgood].
  - unfold u32_ok. apply N.ltb_lt, int_to_f32_bound.
  - exact H.
  - destruct (_ && _); cbn; [exact I|]. unfold u32_ok. apply N.ltb_lt, f64_to_f32_bound.
  - destruct (float_from_str round32 inf32 nan32 sign32 s) as [b|] eqn:E.
    + apply float_from_str_bound in E; [|apply round32_bound|unfold inf32, nan32; lia]. cbn.
      unfold u32_ok, two32, sign32, nan32 in *. lia.
    + eapply jgood_impl; [apply special_float_bound; unfold inf32, nan32; lia|]. intros b. cbn.
      unfold u32_ok, two32, sign32, nan32 in *. lia.
Qed.

(** ** Base64 *)
Lemma b64_val_bound url c v : b64_val url c = Some v -> v < 64.
Proof.
  unfold b64_val. destruct ((65 <=? c) && (c <=? 90)) eqn:E1; [intros H; injection H as <-; lia|].
  destruct ((97 <=? c) && (c <=? 122)) eqn:E2; [intros H; injection H as <-; lia|].
  destruct ((48 <=? c) && (c <=? 57)) eqn:E3; [intros H; injection H as <-; lia|].
  destruct (c =? _); [intros H; injection H as <-; lia|]. destruct (c =? _); [intros H; injection H as <-; lia|discriminate].
Qed.
Lemma b64_sym_bound url c v : b64_sym url c = inr v -> v < 64.
Proof. unfold b64_sym. destruct (b64_val url c) eqn:E; [|discriminate]. intros H. injection H as <-. eapply b64_val_bound, E. Qed.
Lemma bytes1_ok p q : p < 64 -> q < 64 -> bytes_ok (bytes1 p q).
Proof. intros Hp Hq. assert (q / 16 < 4) by (apply N.div_lt_upper_bound; lia). unfold bytes1. allf. Qed.
Lemma bytes2_ok p q r : p < 64 -> q < 64 -> r < 64 -> bytes_ok (bytes2 p q r).
Proof.
  intros Hp Hq Hr. assert (q / 16 < 4) by (apply N.div_lt_upper_bound; lia).
  assert (q mod 16 < 16) by (apply N.mod_lt; lia). assert (r / 4 < 16) by (apply N.div_lt_upper_bound; lia).
  unfold bytes2. allf.
Qed.
Lemma bytes3_ok p q r x : p < 64 -> q < 64 -> r < 64 -> x < 64 -> bytes_ok (bytes3 p q r x).
Proof.
  intros Hp Hq Hr Hx. assert (q / 16 < 4) by (apply N.div_lt_upper_bound; lia).
  assert (q mod 16 < 16) by (apply N.mod_lt; lia). assert (r / 4 < 16) by (apply N.div_lt_upper_bound; lia).
  assert (r mod 4 < 4) by (apply N.mod_lt; lia). unfold bytes3. allf.
Qed.
Lemma b64_decode_ok url : forall n s b, (length s <= n)%nat -> b64_decode url s = inr b -> bytes_ok b.
Proof.
  assert (S1 : forall c (k : N -> b64_err + bytes) b (P : Prop), ebind (b64_sym url c) k = inr b -> (forall v, v < 64 -> k v = inr b -> P) -> P).
  { intros c k b P H K. destruct (b64_sym url c) eqn:E; [discriminate|]. cbn in H. apply (K n); [eapply b64_sym_bound, E|exact H]. }
  induction n as [|n IH]; intros s b Hn H.
  { destruct s; [injection H as <-; constructor|cbn in Hn; lia]. }
  destruct s as [|a [|b0 [|c [|d [|e rest]]]]]; cbn [b64_decode] in H.
  - injection H as <-. constructor.
  - apply (S1 _ _ _ _ H). intros v _ X. discriminate X.
  - apply (S1 _ _ _ _ H). intros p Hp X. apply (S1 _ _ _ _ X). intros q Hq Y. injection Y as <-. now apply bytes1_ok.
  - apply (S1 _ _ _ _ H). intros p Hp X. apply (S1 _ _ _ _ X). intros q Hq Y.
    destruct (c =? 61); [injection Y as <-; now apply bytes1_ok|].
    apply (S1 _ _ _ _ Y). intros r Hr Z. injection Z as <-. now apply bytes2_ok.
  - apply (S1 _ _ _ _ H). intros p Hp X. apply (S1 _ _ _ _ X). intros q Hq Y.
    destruct (c =? 61); [destruct (d =? 61); [injection Y as <-; now apply bytes1_ok|discriminate]|].
    apply (S1 _ _ _ _ Y). intros r Hr Z. destruct (d =? 61); [injection Z as <-; now apply bytes2_ok|].
    apply (S1 _ _ _ _ Z). intros x Hx W. injection W as <-. now apply bytes3_ok.
  - apply (S1 _ _ _ _ H). intros p Hp X. apply (S1 _ _ _ _ X). intros q Hq Y.
    apply (S1 _ _ _ _ Y). intros r Hr Z. apply (S1 _ _ _ _ Z). intros x Hx W.
    change (ebind (b64_decode url (e :: rest)) (fun more => inr (bytes3 p q r x ++ more)) = inr b) in W.
    destruct (b64_decode url (e :: rest)) as [er|more] eqn:E; [discriminate|]. cbn [ebind] in W.
    assert (b = bytes3 p q r x ++ more) as -> by congruence. apply bytes_ok_app. split; [now apply bytes3_ok|]. eapply IH; [|exact E]. cbn [length] in Hn |- *. lia.
Qed.
Lemma de_bytes_good s : jgood bytes_ok (de_bytes s).
Proof.
  unfold de_bytes. destruct (b64_decode false s) as [e|b] eqn:E; [|eapply b64_decode_ok; [apply Nat.le_refl|exact E]].
  assert (X : jgood bytes_ok match b64_decode true s with inr b => JOk b | inl _ => JErr XBase64 end).
  { destruct (b64_decode true s) as [e'|b] eqn:E'; [exact I|]. eapply b64_decode_ok; [apply Nat.le_refl|exact E']. }
  destruct e as [c|]; [|exact I]. destruct c as [|p]; [exact I|].
  do 7 (destruct p as [p|p|]; try exact I; try exact X).
Qed.

(** ** Sorted members *)
Lemma bytes_cmp_refl a : bytes_cmp a a = Eq.
Proof. induction a as [|x a IH]; cbn; [reflexivity|]. now rewrite N.compare_refl. Qed.
Lemma bytes_cmp_eq a b : bytes_cmp a b = Eq -> a = b.
Proof.
  revert b. induction a as [|x a IH]; intros [|y b]; cbn; try discriminate; [reflexivity|].
  destruct (N.compare_spec x y) as [->|?|?]; try discriminate. intros H. f_equal. now apply IH.
Qed.
Lemma bytes_cmp_trans a b c : bytes_cmp a b = Lt -> bytes_cmp b c = Lt -> bytes_cmp a c = Lt.
Proof.
  revert b c. induction a as [|x a IH]; intros [|y b] [|z c]; cbn; try discriminate; try reflexivity.
  destruct (N.compare_spec x y) as [->|L|L]; try discriminate.
  - destruct (N.compare_spec y z) as [->|L2|L2]; try discriminate; [apply IH|reflexivity].
  - intros _. destruct (N.compare_spec y z) as [->|L2|L2]; try discriminate; intros _;
      (destruct (N.compare_spec x z); [lia|reflexivity|lia]) || (destruct (x ?= z) eqn:E; [apply N.compare_eq in E; lia|reflexivity|apply N.compare_gt_iff in E; lia]).
Qed.
Lemma bytes_cmp_anti a b : bytes_cmp a b = Gt -> bytes_cmp b a = Lt.
Proof.
  revert b. induction a as [|x a IH]; intros [|y b]; cbn; try discriminate; [reflexivity|].
  rewrite (N.compare_antisym x y). destruct (x ?= y); cbn; try discriminate; [apply IH|reflexivity].
Qed.
Fixpoint keys_up {A} (l : list (str * A)) : Prop :=
  match l with [] => True | (k, _) :: r => Forall (fun kv => bytes_cmp k (fst kv) = Lt) r /\ keys_up r end.
Lemma sorted_insert_In {A} k (v : A) l kv : In kv (sorted_insert k v l) -> kv = (k, v) \/ In kv l.
Proof.
  induction l as [|[k' v'] l IH]; cbn; [intros [<-|[]]; auto|].
  destruct (bytes_cmp k k'); cbn; intros H; intuition.
Qed.
Lemma sorted_insert_up {A} k (v : A) l : keys_up l -> keys_up (sorted_insert k v l).
Proof.
  induction l as [|[k' v'] l IH]; cbn; [repeat constructor|]. intros [H1 H2].
  destruct (bytes_cmp k k') eqn:E; cbn.
  - apply bytes_cmp_eq in E. subst k'. auto.
  - split; [|auto]. constructor; [exact E|]. eapply Forall_impl; [|exact H1]. intros a. cbn. intros Ha. eapply bytes_cmp_trans; eassumption.
  - split; [|apply IH, H2]. apply Forall_forall. intros kv Hkv. apply sorted_insert_In in Hkv. destruct Hkv as [->|Hkv].
    + cbn. now apply bytes_cmp_anti.
    + rewrite Forall_forall in H1. now apply H1.
Qed.
Lemma sort_members_good {A} (l : list (str * A)) : keys_up (sort_members l) /\ forall kv, In kv (sort_members l) -> In kv l.
Proof.
  unfold sort_members. assert (G : forall acc, keys_up acc ->
    keys_up (fold_left (fun acc kv => sorted_insert (fst kv) (snd kv) acc) l acc) /\
    forall kv, In kv (fold_left (fun acc kv => sorted_insert (fst kv) (snd kv) acc) l acc) -> In kv acc \/ In kv l).
  { induction l as [|[k v] l IH]; intros acc Ha; cbn [fold_left]; [split; [exact Ha|auto]|].
    destruct (IH (sorted_insert k v acc) (sorted_insert_up k v acc Ha)) as [I1 I2]. split; [exact I1|].
    intros kv Hkv. destruct (I2 kv Hkv) as [H|H]; [|right; right; exact H].
    apply sorted_insert_In in H. cbn. destruct H as [->|H]; auto. }
  destruct (G [] I) as [G1 G2]. split; [exact G1|]. intros kv H. destruct (G2 kv H) as [[]|H']; exact H'.
Qed.
Lemma string_keys_nodup (l : list (str * value)) : keys_up l ->
  keys_nodupb (map (fun kv => (MKString (fst kv), snd kv)) l) = true.
Proof.
  induction l as [|[k v] l IH]; cbn; [reflexivity|]. intros [H1 H2]. rewrite (IH H2), andb_true_r. apply negb_true_iff.
  destruct (existsb _ _) eqn:E; [|reflexivity]. exfalso. apply existsb_exists in E. destruct E as (kv & Hin & Hk).
  apply in_map_iff in Hin. destruct Hin as ([k2 v2] & <- & Hin). cbn in Hk. apply bytes_eqb_eq in Hk. subst k2.
  rewrite Forall_forall in H1. specialize (H1 _ Hin). cbn in H1. rewrite bytes_cmp_refl in H1. discriminate H1.
Qed.

(** ** Typed messages *)
Lemma typed_one d n v f : (d < 18)%nat -> find_desc wkt_tables d n = Some f -> ok_field wkt_tables f v = true ->
  ok_msg wkt_tables (DM d [(n, SVal v)]) = true.
Proof.
  intros Hd Hf Hv. unfold ok_msg. cbn [dm_desc dm_fields forallb]. unfold ok_slot. cbn [fst snd]. rewrite Hf, Hv.
  apply andb_true_iff. split; [|reflexivity]. apply andb_true_iff. split; [apply andb_true_iff; split; [apply Nat.ltb_lt; exact Hd|reflexivity]|].
  unfold oneofs_okb. cbn [forallb fst snd]. rewrite andb_true_r. destruct (get_field wkt_tables d n) as [g|]; [|reflexivity].
  destruct (fd_oneof g) as [nums|]; [|reflexivity]. apply forallb_forall. intros x _. destruct (N.eqb_spec x n) as [|Hx]; [reflexivity|].
  cbn [orb bt_get]. destruct (N.eqb_spec x n); [congruence|reflexivity].
Qed.
Lemma wvalue_good n v f : find_desc wkt_tables 5 n = Some f -> ok_field wkt_tables f v = true ->
  ok_elem wkt_tables (wvalue n v) (KMessage 5) = true.
Proof. intros Hf Hv. unfold wvalue. rewrite ok_elem_msg. cbn [kind_msg dm_desc Nat.eqb]. apply (typed_one 5 n v f); auto. lia. Qed.
Definition wmsg (v : value) : Prop := ok_elem wkt_tables v (KMessage 5) = true.
Lemma wmsg_inv v : wmsg v -> exists x, v = VMessage x /\ dm_desc x = 5%nat /\ ok_msg wkt_tables x = true.
Proof. intros H. exact (ok_elem_msg_inv wkt_tables v (KMessage 5) 5 eq_refl H). Qed.
Lemma watom_good n v k : (n = 4 /\ k = KBool \/ n = 2 /\ k = KDouble \/ n = 3 /\ k = KString) -> sc_okb k v = true -> wmsg (wvalue n v).
Proof.
  intros Hn Hv. unfold wmsg. destruct (find_desc wkt_tables 5 n) as [f|] eqn:Ef.
  - apply (wvalue_good n v f Ef). pose proof (sc_ok_elem wkt_tables _ _ Hv) as Q.
    assert (Hf : fd_kind f = k /\ fd_is_list f = false /\ fd_is_map f = false).
    { destruct Hn as [[-> ->]|[[-> ->]|[-> ->]]]; vm_compute in Ef; injection Ef as <-; repeat split. }
    destruct Hf as (F1 & F2 & F3). destruct v; try discriminate Q; cbn [ok_field]; rewrite F1, F2, F3, Q; reflexivity.
  - exfalso. destruct Hn as [[-> _]|[[-> _]|[-> _]]]; vm_compute in Ef; discriminate Ef.
Qed.
Lemma wlist_good vs : Forall wmsg vs -> ok_msg wkt_tables (wlist vs) = true.
Proof.
  intros H. unfold wlist. destruct (find_desc wkt_tables 6 1) as [f|] eqn:Ef; [|vm_compute in Ef; discriminate Ef].
  apply (typed_one 6 1 _ f); [lia|exact Ef|]. vm_compute in Ef. injection Ef as <-. cbn [ok_field].
  apply andb_true_iff. split; [reflexivity|]. apply forallb_forall. intros x Hx. rewrite Forall_forall in H. exact (H x Hx).
Qed.
Lemma wstruct_good ms : Forall (fun kv => str_ok (fst kv) /\ wmsg (snd kv)) ms -> ok_msg wkt_tables (wstruct ms) = true.
Proof.
  intros H. unfold wstruct. destruct (find_desc wkt_tables 3 1) as [f|] eqn:Ef; [|vm_compute in Ef; discriminate Ef].
  apply (typed_one 3 1 _ f); [lia|exact Ef|]. destruct (sort_members_good ms) as [S1 S2].
  assert (exists kf vf, kind_msg (fd_kind f) = Some 4%nat /\ fd_is_map f = true /\ entry_key wkt_tables 4 = Some kf /\ entry_value wkt_tables 4 = Some vf
    /\ fd_kind kf = KString /\ fd_kind vf = KMessage 5) as (kf & vf & F1 & F2 & F3 & F4 & F5 & F6).
  { vm_compute in Ef. injection Ef as <-. eexists. eexists. repeat split; vm_compute; reflexivity. }
  cbn [ok_field]. rewrite F1, F2, F3, F4, F5, F6. apply andb_true_iff. split; [apply string_keys_nodup, S1|].
  apply forallb_forall. intros kv Hkv. apply in_map_iff in Hkv. destruct Hkv as ([k v] & <- & Hin). apply S2 in Hin.
  rewrite Forall_forall in H. destruct (H _ Hin) as [[K1 K2] V]. cbn [fst snd mk_okb] in *. apply andb_true_iff.
  split; [apply andb_true_iff; split; [now apply bytes_okb_ok|exact K2]|exact V].
Qed.
Lemma wsub_good n d x : (n = 5 /\ d = 3%nat \/ n = 6 /\ d = 6%nat) -> dm_desc x = d -> ok_msg wkt_tables x = true ->
  ok_elem wkt_tables (wvalue n (VMessage x)) (KMessage 5) = true.
Proof.
  intros H Hd Hx. destruct (find_desc wkt_tables 5 n) as [f|] eqn:Ef.
  - apply (wvalue_good n _ f Ef). rewrite ok_field_plain by reflexivity. rewrite ok_elem_msg.
    destruct H as [[-> ->]|[-> ->]]; vm_compute in Ef; injection Ef as <-; cbn [kind_msg fd_kind]; rewrite Hx, Hd; reflexivity.
  - exfalso. destruct H as [[-> _]|[-> _]]; vm_compute in Ef; discriminate Ef.
Qed.
Lemma wkt_wrap_range t d i : wkt_of t d = Some (WWrap i) -> (8 <= i <= 16)%nat.
Proof.
  unfold wkt_of, wkt_named. intros H.
  repeat match type of H with (if ?c then _ else _) = _ => destruct c; [try discriminate H; try (injection H as <-; lia)|] end. discriminate H.
Qed.
Lemma wrapped_facts i : (8 <= i <= 16)%nat ->
  exists f, get_field wkt_tables i 1 = Some f /\ find_desc wkt_tables i 1 = Some f /\ is_repeated f = false /\ fd_is_map f = false /\
    kind_msg (fd_kind f) = None /\ match fd_kind f with KEnum _ => False | _ => True end /\ wrapped_kind i = fd_kind f /\ (i < 18)%nat.
Proof.
  intros H. assert (A : (i = 8 \/ i = 9 \/ i = 10 \/ i = 11 \/ i = 12 \/ i = 13 \/ i = 14 \/ i = 15 \/ i = 16)%nat) by lia. clear H.
  repeat (destruct A as [A|A]); subst i; (eexists; split; [vm_compute; reflexivity|]; repeat split; try (vm_compute; reflexivity); try exact I; lia).
Qed.

Lemma find_msg_from_bound l : forall i name j, find_msg_from i l name = Some j -> (i <= j < i + length l)%nat.
Proof.
  induction l as [|m l IH]; intros i name j; cbn [find_msg_from length]; [discriminate|].
  destruct (bytes_eqb _ _); [intros [= <-]; lia|]. intros H. apply IH in H. lia.
Qed.
Lemma find_msg_lt t name d : find_msg t name = Some d -> (d < length (t_messages t))%nat.
Proof. intros H. apply find_msg_from_bound in H. lia. Qed.

Section Safe.
  Variables (E : json_externs) (t : tables) (deny nulls : bool).
  Hypothesis Hw : wf t.
  (** no two extensions of one message share a number *)
  Hypothesis Hx : forall d, NoDup (map fd_number (msg_exts t d)).
  (** null is no value of a repeated field, or there are no null members *)
  Hypothesis Hnull : nulls = true ->
    forall d n f, find_desc t d n = Some f -> is_repeated f = true -> null_field t f = JOk None.
  Hypothesis Hts : forall s a b, jx_parse_timestamp E s = Some (a, b) -> i64_ok a = true /\ i32_ok b = true.
  Hypothesis Hdu : forall s a b, jx_parse_duration E s = Some (a, b) -> i64_ok a = true /\ i32_ok b = true.
  Let Ht : tables_ok t := proj1 Hw.

  Definition gwf (g : goal) : Prop :=
    match g with
    | GScalar k => kind_msg k = None /\ kind_okb t k = true
    | GMsg d => (d < length (t_messages t))%nat
    | GList k => kind_okb t k = true
    | GMap k => exists e kf vf k0, kind_msg k = Some e /\ entry_key t e = Some kf /\ entry_value t e = Some vf /\
                  mk_default (fd_kind kf) = Some k0 /\ is_repeated vf = false
    | GWValue | GStr => True
    end.
  Definition gok (g : goal) (v : value) : Prop :=
    match g with
    | GScalar k => sc_okb k v = true
    | GMsg d => ok_elem t v (KMessage d) = true
    | GList k => exists vs, v = VList vs /\ Forall (fun x => ok_elem t x k = true) vs
    | GMap k => exists e kf vf kvs, kind_msg k = Some e /\ entry_key t e = Some kf /\ entry_value t e = Some vf /\ v = VMap kvs /\
                  keys_nodupb kvs = true /\ Forall (fun x => mk_okb (fd_kind kf) (fst x) = true /\ ok_elem t (snd x) (fd_kind vf) = true) kvs
    | GWValue => wmsg v
    | GStr => exists s, v = VString s /\ str_ok s
    end.
  (** only values of enums can be left out *)
  Definition gpost (g : goal) (o : option value) : Prop :=
    match o with
    | Some v => gok g v
    | None => match g with GScalar (KEnum _) => True | _ => False end
    end.
  Definition fwf (f : fdl) : Prop := exists d, find_desc t d (fd_number f) = Some f.
  Definition fpost (f : fdl) (o : option value) : Prop :=
    match o with Some v => ok_field t f v = true | None => True end.

  Lemma fwf_map f : fwf f -> is_repeated f = false -> fd_is_map f = false.
  Proof.
    intros [d H] Hr. unfold find_desc in H. destruct (get_field t d (fd_number f)) as [g|] eqn:Eg.
    - injection H as ->. exact (get_field_map t Hw _ _ _ Eg Hr).
    - destruct (get_ext_inv _ _ _ _ Ht H) as (_ & Hin & _). destruct (msg_exts_inv _ _ _ Ht Hin) as (m & x & e & _ & _ & _ & _ & -> & _).
      unfold is_repeated in Hr. cbn in *. unfold is_map_kind. now rewrite Hr.
  Qed.
  Lemma kind_goal_wf k : kind_okb t k = true -> gwf (kind_goal k).
  Proof.
    intros H. unfold kind_goal. destruct (kind_msg k) as [d|] eqn:Ek; [|split; assumption].
    destruct k; cbn in Ek; try discriminate; injection Ek as <-; cbn in H |- *; apply Nat.ltb_lt; exact H.
  Qed.
  Lemma kind_goal_ok k v : gok (kind_goal k) v -> ok_elem t v k = true.
  Proof.
    unfold kind_goal. destruct (kind_msg k) as [d|] eqn:Ek; cbn [gok]; [|apply sc_ok_elem].
    destruct v; cbn [ok_elem kind_msg]; try discriminate. rewrite Ek. auto.
  Qed.
  Lemma field_goal_wf f : fwf f -> gwf (field_goal f).
  Proof.
    intros [d H]. pose proof (find_desc_ok _ _ _ _ Ht H) as Hfo. pose proof (find_desc_shape _ _ _ _ Hw H) as Hsh.
    unfold field_goal. destruct (fd_is_list f); [exact (fo_kind _ _ Hfo)|]. destruct (fd_is_map f) eqn:Em.
    - destruct (fs_map _ _ Hsh Em) as (e & kf & vf & k0 & A1 & A2 & A3 & A4 & A5 & A6). exists e, kf, vf, k0. auto.
    - apply kind_goal_wf, (fo_kind _ _ Hfo).
  Qed.
  Lemma field_goal_ok f v : gok (field_goal f) v -> ok_field t f v = true.
  Proof.
    unfold field_goal. destruct (fd_is_list f) eqn:El.
    - intros (vs & -> & H). cbn [ok_field]. rewrite El. apply forallb_forall. rewrite Forall_forall in H. exact H.
    - destruct (fd_is_map f) eqn:Em.
      + intros (e & kf & vf & kvs & A1 & A2 & A3 & -> & A4 & A5). cbn [ok_field]. rewrite A1, Em, A2, A3, A4. apply forallb_forall.
        intros x Hin. rewrite Forall_forall in A5. destruct (A5 x Hin) as [-> ->]. reflexivity.
      + intros H. apply kind_goal_ok in H. destruct v as [b|z|z|n|n|n|n|s|s|z|m|vs|kvs]; try discriminate H;
          cbn [ok_field]; rewrite El, Em, H; reflexivity.
  Qed.

  Lemma make_good d x : (d < length (t_messages t))%nat -> ok_msg wkt_tables x = true ->
    jgood (gpost (GMsg d)) (make_message t d x).
  Proof.
    intros Hd Hok. unfold make_message. destruct (ok_msg_enc wkt_tables x wkt_wf Hok) as (b & Eb & Bb). rewrite Eb. cbn [jdec jbind].
    assert (H := C04_merge_total t (new_msg d) b Hw (proj2 (ok_msg_iff _ _) (new_msg_ok _ _ Hd)) Bb).
    destruct (msg_merge t (new_msg d) b) as [m r|e m| |]; try contradiction; cbn [jgood gpost gok]; [|exact I].
    rewrite ok_elem_msg. cbn [kind_msg]. destruct H as (H1 & H2 & _). rewrite H1, H2. cbn. now rewrite Nat.eqb_refl.
  Qed.

  Lemma de_scalar_good k j : kind_msg k = None -> kind_okb t k = true -> json_okb nulls j = true ->
    jgood (gpost (GScalar k)) (de_scalar t deny k j).
  Proof.
    intros Hm Hk Hj.
    assert (I32 : forall f : Z -> value, (forall z, i32_ok z = true -> sc_okb k (f z) = true) ->
      jgood (gpost (GScalar k)) (let* z := de_i32 j in JOk (Some (f z)))).
    { intros f Hf. eapply jgood_bind; [apply de_int_range; unfold i32_lo, i32_hi; lia|]. intros z Hz. apply Hf. unfold i32_ok, i32_lo, i32_hi in *. lia. }
    assert (I64 : forall f : Z -> value, (forall z, i64_ok z = true -> sc_okb k (f z) = true) ->
      jgood (gpost (GScalar k)) (let* z := de_i64 j in JOk (Some (f z)))).
    { intros f Hf. eapply jgood_bind; [apply de_int_range; unfold i64_lo, i64_hi; lia|]. intros z Hz. apply Hf. unfold i64_ok, i64_lo, i64_hi in *. lia. }
    assert (U32 : forall f : N -> value, (forall z, u32_ok z = true -> sc_okb k (f z) = true) ->
      jgood (gpost (GScalar k)) (let* z := de_u32 j in JOk (Some (f (Z.to_N z))))).
    { intros f Hf. eapply jgood_bind; [apply de_int_range; unfold u32_hi; lia|]. intros z Hz. apply Hf. unfold u32_ok, two32, u32_hi in *. lia. }
    assert (U64 : forall f : N -> value, (forall z, u64_ok z = true -> sc_okb k (f z) = true) ->
      jgood (gpost (GScalar k)) (let* z := de_u64 j in JOk (Some (f (Z.to_N z))))).
    { intros f Hf. eapply jgood_bind; [apply de_int_range; unfold u64_hi; lia|]. intros z Hz. apply Hf. unfold u64_ok, two64, u64_hi in *. lia. }
    destruct k; try discriminate Hm; cbn [de_scalar];
      try (apply I32; intros z Hz; exact Hz); try (apply I64; intros z Hz; exact Hz);
      try (apply U32; intros z Hz; exact Hz); try (apply U64; intros z Hz; exact Hz).
    all: try (eapply jgood_bind; [apply (de_f64_good nulls), Hj|]; intros b Hb; exact Hb).
    all: try (eapply jgood_bind; [apply (de_f32_good nulls), Hj|]; intros b Hb; exact Hb).
    all: try (destruct j; try exact I; try reflexivity; exact Hj).
    all: try (destruct j; try exact I; eapply jgood_bind; [apply de_bytes_good|]; intros b Hb; cbn; apply bytes_okb_ok, Hb).
    unfold de_enum. destruct (is_null_enum t _).
    - destruct j; try exact I; try reflexivity. destruct (bytes_eqb _ _); [reflexivity|]. destruct deny; exact I.
    - destruct j; try exact I.
      + destruct ((i32_lo <=? z)%Z && (z <=? i32_hi)%Z) eqn:Ez; [|exact I]. cbn. unfold i32_ok, i32_lo, i32_hi in *. lia.
      + destruct (enum_number t _ s) as [z|] eqn:Ez; [|destruct deny; exact I]. cbn. eapply enum_number_ok; eassumption.
  Qed.

  Lemma de_watom_good j : json_okb nulls j = true -> jgood wmsg (de_watom j).
  Proof.
    intros Hj. destruct j; cbn [de_watom jgood]; try exact I.
    - unfold wmsg. vm_compute. reflexivity.
    - eapply watom_good; [auto 6|reflexivity].
    - eapply watom_good; [auto 6|]. cbn. apply N.ltb_lt, int_to_f64_bound.
    - eapply watom_good; [auto 6|]. cbn. apply N.ltb_lt, f32_to_f64_bound.
    - eapply watom_good; [auto 6|]. exact Hj.
    - eapply watom_good; [auto 6|]. exact Hj.
  Qed.

  Lemma typed_time_ok w s n : (w = 1 \/ w = 2)%nat -> i64_ok s = true -> i32_ok n = true -> ok_msg wkt_tables (typed_time w s n) = true.
  Proof.
    intros Hw' Hs Hn. unfold ok_msg, typed_time. cbn [dm_desc dm_fields forallb]. unfold ok_slot.
    destruct Hw'; subst w; cbn; rewrite Hs, Hn; reflexivity.
  Qed.
  Lemma mask_msg_ok ps : Forall str_ok ps -> ok_msg wkt_tables (DM 7 [(1, SVal (VList (map VString ps)))]) = true.
  Proof.
    intros H. destruct (find_desc wkt_tables 7 1) as [f|] eqn:Ef; [|vm_compute in Ef; discriminate Ef].
    apply (typed_one 7 1 _ f); [lia|exact Ef|]. vm_compute in Ef. injection Ef as <-. cbn [ok_field]. apply andb_true_iff.
    split; [reflexivity|]. apply forallb_forall. intros x Hin. apply in_map_iff in Hin. destruct Hin as (p & <- & Hin).
    rewrite Forall_forall in H. destruct (H p Hin) as [A B]. cbn. rewrite B, andb_true_r. now apply bytes_okb_ok.
  Qed.

  Lemma de_wkt_atom_good w d j : wkt_of t d = Some w -> (d < length (t_messages t))%nat -> json_okb nulls j = true ->
    jgood (gpost (GMsg d)) (de_wkt_atom E t deny w d j).
  Proof.
    intros Hk Hd Hj. destruct w; cbn [de_wkt_atom]; try exact I.
    - destruct j; try exact I. destruct (strict_rfc3339 s); [|exact I]. destruct (jx_parse_timestamp E s) as [[a b]|] eqn:Ep; [|exact I].
      destruct (check_timestamp a); [|exact I]. destruct (Hts _ _ _ Ep) as [O1 O2]. apply make_good; [exact Hd|]. apply typed_time_ok; auto.
    - destruct j; try exact I. destruct (jx_parse_duration E s) as [[a b]|] eqn:Ep; [|exact I].
      destruct (check_duration a b); [|exact I]. destruct (Hdu _ _ _ Ep) as [O1 O2]. apply make_good; [exact Hd|]. apply typed_time_ok; auto.
    - eapply jgood_bind; [apply de_watom_good, Hj|]. intros v Hv. destruct (wmsg_inv _ Hv) as (x & -> & _ & Hok). now apply make_good.
    - destruct j; try exact I. destruct (mask_in s) as [ps|] eqn:Ep; [|exact I]. apply make_good; [exact Hd|]. apply mask_msg_ok.
      eapply mask_in_ok; [|exact Ep]. cbn in Hj. apply andb_true_iff in Hj. split; [apply bytes_okb_ok|]; tauto.
    - destruct (wrapped_facts _ (wkt_wrap_range _ _ _ Hk)) as (f & F1 & F2 & F3 & F4 & F5 & F6 & F7 & F8).
      eapply jgood_bind.
      { assert (Ko : kind_okb t (wrapped_kind d0) = true).
        { rewrite F7. destruct (fd_kind f); try reflexivity; try discriminate F5. destruct F6. }
        apply de_scalar_good; [rewrite F7; exact F5|exact Ko|exact Hj]. }
      intros v Hv. rewrite F7 in Hv. destruct v as [v|].
      + apply make_good; [exact Hd|]. apply (typed_one d0 1 v f); auto. cbn in Hv. pose proof (sc_ok_elem wkt_tables _ _ Hv) as Q.
        destruct v as [b|z|z|n|n|n|n|s|s|z|m|vs|kvs]; try discriminate Q; cbn [ok_field]; rewrite Q, F4, (is_list_repeated _ F3); reflexivity.
      + cbn in Hv. destruct (fd_kind f); contradiction.
  Qed.

  Lemma de_atom_good j g : gwf g -> json_okb nulls j = true -> jgood (gpost g) (de_atom E t deny j g).
  Proof.
    intros Hg Hj. destruct g as [k|d|k|k| |]; cbn [de_atom]; try exact I.
    - apply de_scalar_good; try apply Hg. exact Hj.
    - destruct (wkt_of t d) as [w|] eqn:Ek; [|exact I]. apply de_wkt_atom_good; auto.
    - eapply jgood_bind; [apply de_watom_good, Hj|]. intros v Hv. exact Hv.
    - destruct j; try exact I. cbn. cbn in Hj. apply andb_true_iff in Hj. eexists. split; [reflexivity|]. split; [apply bytes_okb_ok|]; tauto.
  Qed.
  Lemma null_field_good f : fwf f -> nulls = true -> jgood (fpost f) (null_field t f).
  Proof.
    intros Hf Hn. destruct (is_repeated f) eqn:Er.
    { destruct Hf as [d Hf]. rewrite (Hnull Hn _ _ _ Hf Er). exact I. }
    pose proof (fwf_map f Hf Er) as Em. pose proof (is_list_repeated _ Er) as El. destruct Hf as [d0 Hf].
    pose proof (fo_kind _ _ (find_desc_ok _ _ _ _ Ht Hf)) as Hk. unfold null_field.
    destruct (kind_msg (fd_kind f)) as [d|] eqn:Ek.
    - destruct (bytes_eqb _ _); [|exact I]. assert (Hd : (d < length (t_messages t))%nat).
      { destruct (fd_kind f); cbn in Ek; try discriminate; injection Ek as <-; apply Nat.ltb_lt, Hk. }
      eapply jgood_impl; [apply make_good; [exact Hd|vm_compute; reflexivity]|]. intros [v|] Hv; [|exact I]. cbn in Hv |- *.
      apply field_goal_ok. unfold field_goal. rewrite El, Em. unfold kind_goal. rewrite Ek. exact Hv.
    - destruct (fd_kind f) eqn:Efk; try exact I. destruct (is_null_enum t _); [|exact I]. cbn. rewrite El, Em, Efk. reflexivity.
  Qed.

  (** ** Readers of nested documents *)
  Definition rgood (r : reader) : Prop := forall buf g, gwf g -> jgood (gpost g) (r buf (TGoal g)).
  Definition mgood (r : reader) : Prop := rgood r /\ forall buf f, fwf f -> jgood (fpost f) (r buf (TOpt f)).
  Definition members_good (ms : list (str * reader)) : Prop := Forall (fun kv => str_ok (fst kv) /\ mgood (snd kv)) ms.

  Lemma de_list_good k rs buf : kind_okb t k = true -> Forall rgood rs ->
    jgood (Forall (fun x => ok_elem t x k = true)) (de_list rs buf k).
  Proof.
    intros Hk H. induction H as [|r rs Hr Hrs IH]; cbn [de_list]; [constructor|].
    eapply jgood_bind; [apply Hr, kind_goal_wf, Hk|]. intros v Hv. eapply jgood_bind; [exact IH|]. intros vs Hvs. cbn.
    destruct v as [x|]; [|exact Hvs]. constructor; [|exact Hvs]. now apply kind_goal_ok.
  Qed.
  Lemma de_wlist_good rs buf : Forall rgood rs -> jgood (Forall wmsg) (de_wlist rs buf).
  Proof.
    intros H. induction H as [|r rs Hr Hrs IH]; cbn [de_wlist]; [constructor|].
    eapply jgood_bind; [apply (Hr buf GWValue I)|]. intros v Hv. eapply jgood_bind; [exact IH|]. intros vs Hvs. cbn.
    destruct v as [x|]; [|exact Hvs]. constructor; [exact Hv|exact Hvs].
  Qed.
  Lemma de_arr_good rs buf g : gwf g -> Forall rgood rs -> jgood (gpost g) (de_arr t rs buf g).
  Proof.
    intros Hg Hrs. destruct g as [k|d|k|k| |]; cbn [de_arr]; try exact I.
    - destruct (wkt_of t d) as [w|] eqn:Ek; [|exact I]. destruct w; try exact I.
      + eapply jgood_bind; [apply de_wlist_good, Hrs|]. intros vs Hvs. apply make_good; [exact Hg|].
        pose proof (wsub_good 6 6 (wlist vs) (or_intror (conj eq_refl eq_refl)) eq_refl (wlist_good _ Hvs)) as Q.
        unfold wvalue in Q. rewrite ok_elem_msg in Q. cbn in Q. exact Q.
      + eapply jgood_bind; [apply de_wlist_good, Hrs|]. intros vs Hvs. apply make_good; [exact Hg|]. now apply wlist_good.
    - eapply jgood_bind; [apply de_list_good; [exact Hg|exact Hrs]|]. intros vs Hvs. cbn. eauto.
    - eapply jgood_bind; [apply de_wlist_good, Hrs|]. intros vs Hvs. cbn.
      exact (wsub_good 6 6 (wlist vs) (or_intror (conj eq_refl eq_refl)) eq_refl (wlist_good _ Hvs)).
  Qed.

  Lemma de_key_good k k0 s : mk_default k = Some k0 -> str_ok s -> jgood (fun key => mk_okb k key = true) (de_key k s).
  Proof.
    intros Hk [S1 S2].
    assert (II : forall lo hi mk, (forall z, (lo <= z <= hi)%Z -> mk_okb k (mk z) = true) ->
      jgood (fun key => mk_okb k key = true) match int_from_str lo hi s with Some z => JOk (mk z) | None => JErr XKey end).
    { intros lo hi mk Hmk. destruct (int_from_str lo hi s) eqn:Ei; [|exact I]. cbn. apply Hmk. eapply int_from_str_range, Ei. }
    destruct k; cbn in Hk; try discriminate Hk; cbn [de_key]; cbv zeta; try (apply II; intros z Hz; cbn;
      unfold i32_ok, i64_ok, u32_ok, u64_ok, i32_lo, i32_hi, i64_lo, i64_hi, u32_hi, u64_hi, two32, two64 in *; lia).
    - destruct (bytes_eqb _ _); [reflexivity|]. destruct (bytes_eqb _ _); [reflexivity|exact I].
    - cbn. rewrite S2, andb_true_r. now apply bytes_okb_ok.
  Qed.
  Lemma de_map_good kk k0 vf ms buf : mk_default kk = Some k0 -> gwf (field_goal vf) ->
    (forall v, gok (field_goal vf) v -> ok_elem t v (fd_kind vf) = true) -> members_good ms ->
    forall acc, keys_nodupb acc = true -> Forall (fun x => mk_okb kk (fst x) = true /\ ok_elem t (snd x) (fd_kind vf) = true) acc ->
    jgood (fun kvs => keys_nodupb kvs = true /\ Forall (fun x => mk_okb kk (fst x) = true /\ ok_elem t (snd x) (fd_kind vf) = true) kvs)
      (de_map ms buf kk vf acc).
  Proof.
    intros Hk Hg Hv H. induction H as [|[key r] ms [Hkey [Hr _]] Hms IH]; intros acc Ha1 Ha2; cbn [de_map]; [split; assumption|].
    eapply jgood_bind; [eapply de_key_good; eassumption|]. intros k Hk'. eapply jgood_bind; [apply Hr, Hg|]. intros v Hpv.
    destruct v as [x|]; [|apply IH; assumption]. apply IH; [now apply map_insert_nodup|].
    apply Forall_forall. intros y Hy. apply map_insert_In in Hy. destruct Hy as [->|Hy].
    - cbn. split; [exact Hk'|apply Hv, Hpv].
    - rewrite Forall_forall in Ha2. now apply Ha2.
  Qed.

  Lemma json_field_desc d key f : json_field t d key = Some f -> find_desc t d (fd_number f) = Some f.
  Proof.
    unfold json_field. intros H. unfold find_desc. destruct (get_field_by_json t d key) as [g|] eqn:Eg.
    - injection H as ->. destruct (get_field_by_json_number _ _ _ _ Ht Eg) as [_ ->]. reflexivity.
    - destruct (get_field_by_name_number _ _ _ _ Ht H) as [_ ->]. reflexivity.
  Qed.
  Lemma get_ext_json_desc d key f : get_ext_by_json t d key = Some f -> find_desc t d (fd_number f) = Some f.
  Proof.
    unfold get_ext_by_json. intros H. apply find_some in H. destruct H as [Hin _].
    assert (X : get_ext t d (fd_number f) = Some f).
    { unfold get_ext. specialize (Hx d). revert Hin Hx. generalize (msg_exts t d). clear. induction l as [|g l IH]; [intros []|].
      cbn [map In find]. intros [->|Hin] Hnd; [rewrite N.eqb_refl; reflexivity|]. inversion Hnd as [|? ? Hn Hnd']; subst.
      destruct (N.eqb_spec (fd_number g) (fd_number f)) as [Eq|_]; [|apply IH; assumption].
      exfalso. apply Hn. rewrite Eq. now apply in_map. }
    unfold find_desc. rewrite (field_ext_disjoint _ _ _ _ Hw X). exact X.
  Qed.
  Lemma ok_field_valid f v : ok_field t f v = true -> is_valid_for t f v = true.
  Proof.
    intros H. destruct v as [b|z|z|n|n|n|n|s|s|z|m|vs|kvs];
      try (rewrite ok_field_plain in H by reflexivity; apply andb_true_iff in H; destruct H as [_ H]; exact (ok_elem_valid _ _ _ H)).
    - cbn [ok_field] in H. apply andb_true_iff in H. destruct H as [H1 H2]. cbn [is_valid_for]. rewrite H1.
      rewrite forallb_forall in H2 |- *. intros x Hin. exact (ok_elem_valid _ _ _ (H2 x Hin)).
    - cbn [ok_field] in H. cbn [is_valid_for]. destruct (kind_msg (fd_kind f)); [|discriminate]. destruct (fd_is_map f); [|discriminate].
      destruct (entry_key t n) as [kf|]; [|discriminate]. destruct (entry_value t n) as [vf|]; [|discriminate].
      apply andb_true_iff in H. destruct H as [_ H]. rewrite forallb_forall in H |- *. intros x Hin. specialize (H x Hin).
      apply andb_true_iff in H. destruct H as [H1 H2]. apply andb_true_iff. split; [|pose proof (ok_elem_valid _ _ _ H2) as Q; destruct (snd x); try discriminate H2; exact Q].
      destruct (fst x), (fd_kind kf); try discriminate H1; reflexivity.
  Qed.
  Lemma put_field_good m f v : msg_ok t m -> find_desc t (dm_desc m) (fd_number f) = Some f -> ok_field t f v = true ->
    put_field t m f v = JOk (set_extension m f v) /\ msg_ok t (set_extension m f v).
  Proof.
    intros Hm Hf Hv. split.
    - unfold put_field, set_field, try_set_field. rewrite (ok_field_valid _ _ Hv). reflexivity.
    - destruct m as [d fs]. eapply assigned_ok; [exact Ht|exact Hm|exact Hf|exact Hv|]. apply assigned_set, (mo_sorted _ _ Hm).
  Qed.
  Lemma de_members_good ms buf : members_good ms -> forall m, msg_ok t m ->
    jgood (fun m' => msg_ok t m' /\ dm_desc m' = dm_desc m) (de_members t deny ms buf m).
  Proof.
    intros H. induction H as [|[key r] ms [Hkey [_ Hr]] Hms IH]; intros m Hm; cbn [de_members]; [split; auto|].
    assert (Step : forall f x, find_desc t (dm_desc m) (fd_number f) = Some f -> ok_field t f x = true ->
      jgood (fun m' => msg_ok t m' /\ dm_desc m' = dm_desc m) (de_members t deny ms buf (set_extension m f x))).
    { intros f x Hf Hv. destruct (put_field_good m f x Hm Hf Hv) as [_ O]. exact (IH _ O). }
    destruct (json_field t (dm_desc m) key) as [f|] eqn:Ef.
    - pose proof (json_field_desc _ _ _ Ef) as Fd. eapply jgood_bind; [apply Hr; exists (dm_desc m); exact Fd|].
      intros [x|] Hv; [|apply IH, Hm]. destruct (oneof_given t m f); [exact I|].
      rewrite (proj1 (put_field_good m f x Hm Fd Hv)). cbn [jbind]. apply Step; assumption.
    - destruct (get_ext_by_json t (dm_desc m) key) as [f|] eqn:Ex; [|destruct deny; [exact I|apply IH, Hm]].
      pose proof (get_ext_json_desc _ _ _ Ex) as Fd. eapply jgood_bind; [apply Hr; exists (dm_desc m); exact Fd|].
      intros [x|] Hv; [|apply IH, Hm]. apply Step; assumption.
  Qed.
  Lemma de_wstruct_good ms buf : members_good ms ->
    jgood (Forall (fun kv => str_ok (fst kv) /\ wmsg (snd kv))) (de_wstruct ms buf).
  Proof.
    intros H. induction H as [|[key r] ms [Hkey [Hr _]] Hms IH]; cbn [de_wstruct]; [constructor|].
    eapply jgood_bind; [apply (Hr buf GWValue I)|]. intros v Hv. eapply jgood_bind; [exact IH|]. intros vs Hvs. cbn.
    destruct v as [x|]; [|exact Hvs]. constructor; [split; [exact Hkey|exact Hv]|exact Hvs].
  Qed.

  (** *** Any *)
  Lemma hash_insert_good ms k r : members_good ms -> str_ok k -> mgood r -> members_good (hash_insert k r ms).
  Proof.
    intros H Hk Hr. induction H as [|[k' r'] ms [H1 H2] Hms IH]; cbn [hash_insert]; [constructor; [split; assumption|constructor]|].
    destruct (bytes_eqb k k'); constructor; auto; split; assumption.
  Qed.
  Lemma find_member_good want ms : members_good ms -> forall seen, members_good seen ->
    match find_member want ms seen with Some (r, seen', rest) => mgood r /\ members_good seen' /\ members_good rest | None => True end.
  Proof.
    intros H. induction H as [|[k r] ms [Hk Hr] Hms IH]; intros seen Hs; cbn [find_member]; [exact I|].
    destruct (bytes_eqb k want); [auto|]. apply IH. now apply hash_insert_good.
  Qed.
  Lemma hash_remove_good ms k : members_good ms -> members_good (hash_remove k ms).
  Proof.
    intros H. induction H as [|[k' r'] ms H1 Hms IH]; cbn [hash_remove]; [constructor|].
    destruct (bytes_eqb k k'); [exact Hms|constructor; auto].
  Qed.
  Lemma in_order_good ms : members_good ms -> members_good (in_order E ms).
  Proof.
    intros H. unfold in_order. apply Forall_forall. intros kv Hin. apply in_flat_map in Hin. destruct Hin as (k & _ & Hin).
    destruct (assoc_s k ms) as [r|] eqn:Ea; [|destruct Hin]. destruct Hin as [<-|[]]. apply assoc_s_In in Ea.
    unfold members_good in H. rewrite Forall_forall in H. exact (H _ Ea).
  Qed.
  Lemma any_payload_good rest seen buf name d : (d < length (t_messages t))%nat -> members_good rest -> members_good seen ->
    jgood (fun x => msg_ok t x /\ dm_desc x = d) (any_payload E t deny rest seen buf name d).
  Proof.
    intros Hd Hr Hs. unfold any_payload. destruct (wkt_named name).
    - eapply (jgood_bind (fun p : option value * list (str * reader) * list (str * reader) => gpost (GMsg d) (fst (fst p)))).
      + destruct (assoc_s (s2b "value") seen) as [r|] eqn:Ea.
        * apply assoc_s_In in Ea. unfold members_good in Hs. rewrite Forall_forall in Hs. destruct (Hs _ Ea) as [_ [G _]].
          eapply jgood_bind; [apply (G true (GMsg d) Hd)|]. intros v Hv. exact Hv.
        * pose proof (find_member_good (s2b "value") rest Hr seen Hs) as F.
          destruct (find_member (s2b "value") rest seen) as [[[r seen'] rest']|]; [|exact I]. destruct F as ([G _] & _ & _).
          eapply jgood_bind; [apply (G buf (GMsg d) Hd)|]. intros v Hv. exact Hv.
      + intros [[v seen'] rest'] Hv. cbn in Hv. destruct v as [v|]; [|destruct Hv].
        destruct (ok_elem_msg_inv t v (KMessage d) d eq_refl Hv) as (x & -> & Dx & Ox). cbn [jbind]. apply ok_msg_iff in Ox.
        destruct deny; [|split; assumption]. destruct (in_order E seen' ++ rest') as [|[k ?] ?]; [split; assumption|exact I].
    - pose proof (de_members_good _ true (in_order_good _ Hs) (new_msg d) (new_msg_ok _ _ Hd)) as Q.
      eapply jgood_bind; [exact Q|]. cbn beta. intros x [Ox Dx]. cbn in Dx.
      eapply jgood_impl; [apply (de_members_good _ buf Hr x Ox)|]. intros y [Oy Dy]. split; [exact Oy|congruence].
  Qed.
  Lemma de_any_good ms buf d0 : (d0 < length (t_messages t))%nat -> members_good ms -> jgood (gpost (GMsg d0)) (de_any E t deny ms buf d0).
  Proof.
    intros Hd Hms. unfold de_any. pose proof (find_member_good (s2b "@type") ms Hms [] (Forall_nil _)) as F.
    destruct (find_member (s2b "@type") ms []) as [[[r seen] rest]|]; [|exact I]. destruct F as ([G _] & Hseen & Hrest).
    eapply jgood_bind; [apply (G buf GStr I)|]. intros u Hu. destruct u as [u|]; [|destruct Hu].
    destruct Hu as (url & -> & [U1 U2]). cbn [val_bytes].
    destruct (type_url_name url) as [name|]; [|exact I]. destruct (find_msg t name) as [d|] eqn:Ed; [|exact I].
    apply find_msg_lt in Ed. eapply jgood_bind; [apply (any_payload_good rest seen buf name d); auto; lia|].
    intros x [Ox Dx]. apply ok_msg_iff in Ox. destruct (ok_msg_enc t x Hw Ox) as (b & Eb & Bb). rewrite Eb. cbn [jdec jbind].
    apply make_good; [exact Hd|]. unfold ok_msg. cbn [dm_desc dm_fields forallb]. unfold ok_slot.
    apply bytes_okb_ok in U1. apply bytes_okb_ok in Bb. cbn. rewrite U1, U2, Bb. reflexivity.
  Qed.

  Lemma de_obj_good ms buf g : gwf g -> members_good ms -> jgood (gpost g) (de_obj E t deny ms buf g).
  Proof.
    intros Hg Hms. destruct g as [k|d|k|k| |]; cbn [de_obj]; try exact I.
    - destruct (wkt_of t d) as [w|] eqn:Ek.
      + destruct w; try exact I.
        * now apply de_any_good.
        * eapply jgood_bind; [apply de_wstruct_good, Hms|]. intros vs Hvs. apply make_good; [exact Hg|]. now apply wstruct_good.
        * eapply jgood_bind; [apply de_wstruct_good, Hms|]. intros vs Hvs. apply make_good; [exact Hg|].
          pose proof (wsub_good 5 3 (wstruct vs) (or_introl (conj eq_refl eq_refl)) eq_refl (wstruct_good _ Hvs)) as Q.
          unfold wvalue in Q. rewrite ok_elem_msg in Q. cbn [kind_msg dm_desc Nat.eqb andb] in Q. exact Q.
        * destruct ms; [|exact I]. apply make_good; [exact Hg|vm_compute; reflexivity].
      + eapply jgood_bind; [apply de_members_good; [exact Hms|apply new_msg_ok, Hg]|]. intros m [Om Dm]. cbn in Dm. cbn [jgood gpost gok].
        rewrite ok_elem_msg. cbn [kind_msg]. apply ok_msg_iff in Om. rewrite Om, Dm, Nat.eqb_refl. reflexivity.
    - destruct Hg as (e & kf & vf & k0 & A1 & A2 & A3 & A4 & A5). rewrite A1, A2, A3.
      assert (Fv : fd_is_list vf = false /\ fd_is_map vf = false /\ kind_okb t (fd_kind vf) = true).
      { split; [apply is_list_repeated, A5|]. split; [exact (get_field_map t Hw _ _ _ A3 A5)|]. exact (fo_kind _ _ (get_field_ok _ _ _ _ Ht A3)). }
      destruct Fv as (Fl & Fm & Fk).
      assert (Eg : field_goal vf = kind_goal (fd_kind vf)) by (unfold field_goal; now rewrite Fl, Fm).
      eapply jgood_bind; [apply (de_map_good (fd_kind kf) k0 vf ms buf A4); [rewrite Eg; apply kind_goal_wf, Fk|rewrite Eg; apply kind_goal_ok|exact Hms|reflexivity|constructor]|].
      intros kvs [K1 K2]. cbn. exists e, kf, vf, kvs. auto 10.
    - eapply jgood_bind; [apply de_wstruct_good, Hms|]. intros vs Hvs. cbn.
      exact (wsub_good 5 3 (wstruct vs) (or_introl (conj eq_refl eq_refl)) eq_refl (wstruct_good _ Hvs)).
  Qed.

  (** ** Documents *)
  Section JsonInd.
    Variable P : json -> Prop.
    Hypothesis H0 : forall j, match j with JArr _ | JObj _ => False | _ => True end -> P j.
    Hypothesis H1 : forall l, Forall P l -> P (JArr l).
    Hypothesis H2 : forall l, Forall (fun kv => P (snd kv)) l -> P (JObj l).
    Fixpoint json_ind' (j : json) : P j :=
      match j as j' return P j' with
      | JArr l => H1 l ((fix go l : Forall P l := match l with [] => Forall_nil _ | x :: r => Forall_cons x (json_ind' x) (go r) end) l)
      | JObj l => H2 l ((fix go l : Forall (fun kv => P (snd kv)) l :=
                           match l with [] => Forall_nil _ | x :: r => Forall_cons x (json_ind' (snd x)) (go r) end) l)
      | j' => H0 j' I
      end.
  End JsonInd.

  Lemma de_opt j buf f : j <> JNull -> de E t deny j buf (TOpt f) = de E t deny j buf (TGoal (field_goal f)).
  Proof. destruct j; intros H; try reflexivity. congruence. Qed.
  Theorem de_good j : json_okb nulls j = true -> rgood (de E t deny j).
  Proof.
    induction j as [j Hj0|l IH|l IH] using json_ind'; intros Hj buf g Hg.
    - destruct j; try contradiction; cbn [de target_goal]; apply de_atom_good; auto.
    - cbn [de target_goal]. apply de_arr_good; [exact Hg|]. apply Forall_forall. intros r Hr. apply in_map_iff in Hr.
      destruct Hr as (x & <- & Hin). rewrite Forall_forall in IH. cbn in Hj. rewrite forallb_forall in Hj. exact (IH x Hin (Hj x Hin)).
    - cbn [de target_goal]. apply de_obj_good; [exact Hg|].
      set (ms := map (fun kv => (fst kv, fun b g' => de E t deny (snd kv) b g')) l).
      assert (Hms : members_good ms).
      { apply Forall_forall. intros kr Hr. apply in_map_iff in Hr. destruct Hr as ([k v] & <- & Hin). cbn [fst snd].
        rewrite Forall_forall in IH. cbn in Hj. rewrite forallb_forall in Hj. specialize (Hj _ Hin). cbn [fst snd] in Hj.
        rewrite !andb_true_iff in Hj. destruct Hj as [[[K1 K2] K3] K4]. pose proof (IH _ Hin K4) as R. cbn [snd] in R.
        split; [split; [now apply bytes_okb_ok|exact K2]|]. split; [exact R|]. intros b f Hf.
        assert (D : v = JNull \/ v <> JNull) by (destruct v; auto; right; discriminate). destruct D as [->|D].
        - cbn [de]. apply null_field_good; [exact Hf|]. rewrite orb_false_r in K3. exact K3.
        - rewrite (de_opt v b f D). eapply jgood_impl; [apply R, field_goal_wf, Hf|]. intros [x|] Hx'; [|exact I].
          cbn in Hx' |- *. now apply field_goal_ok. }
      destruct buf; [|exact Hms]. apply Forall_forall. intros kv Hin. destruct (sort_members_good ms) as [_ S].
      unfold members_good in Hms. rewrite Forall_forall in Hms. exact (Hms _ (S _ Hin)).
  Qed.
  Lemma de_member_good j buf f : json_okb nulls j = true -> (nulls || match j with JNull => false | _ => true end) = true -> fwf f ->
    jgood (fpost f) (de E t deny j buf (TOpt f)).
  Proof.
    intros Hj K3 Hf. assert (D : j = JNull \/ j <> JNull) by (destruct j; auto; right; discriminate). destruct D as [->|D].
    - cbn [de]. apply null_field_good; [exact Hf|]. rewrite orb_false_r in K3. exact K3.
    - rewrite (de_opt j buf f D). eapply jgood_impl; [apply (de_good j Hj), field_goal_wf, Hf|]. intros [x|] Hx'; [|exact I].
      cbn in Hx' |- *. now apply field_goal_ok.
  Qed.
  Theorem from_json_good d j : (d < length (t_messages t))%nat -> json_okb nulls j = true ->
    jgood (fun m => ok_msg t m = true /\ dm_desc m = d) (from_json E t deny d j).
  Proof.
    intros Hd Hj. unfold from_json. eapply jgood_bind; [apply (de_good j Hj false (GMsg d) Hd)|]. intros [v|] Hv; [|destruct Hv].
    destruct (ok_elem_msg_inv t v (KMessage d) d eq_refl Hv) as (m & -> & Dm & Om). cbn. auto.
  Qed.
End Safe.
