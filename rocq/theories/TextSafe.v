(** The text parser comes back with a message or an error, and what it leaves
    in the message is valid. *)
From Coq Require Import String.
From Verif Require Import Base BaseProofs Wire WireProofs LoopProofs Unknown UnknownProofs Value Descr
  Fields Codec DescrOk DescrProofs FieldsProofs LenProofs MergeProofs RoundSpec RoundProofs EncBytes History
  Float TextLex TextFormat TextParse TextLexProofs TextTokens.
Open Scope N_scope.

(** ** What is left is a suffix of what was there *)
Definition wsfx (r ts : list tok) : Prop := exists p, ts = p ++ r.
Definition psfx (r ts : list tok) : Prop := exists p, p <> [] /\ ts = p ++ r.
Lemma wsfx_refl ts : wsfx ts ts.
Proof. exists []. reflexivity. Qed.
Lemma psfx_wsfx r ts : psfx r ts -> wsfx r ts.
Proof. intros (p & _ & E). exists p. exact E. Qed.
Lemma wsfx_trans a b c : wsfx a b -> wsfx b c -> wsfx a c.
Proof. intros [p ->] [q ->]. exists (q ++ p). apply app_assoc. Qed.
Lemma psfx_trans a b c : psfx a b -> wsfx b c -> psfx a c.
Proof.
  intros (p & Hp & ->) [q ->]. exists (q ++ p). split; [|apply app_assoc]. intros H. apply app_eq_nil in H. tauto.
Qed.
Lemma psfx_trans' a b c : wsfx a b -> psfx b c -> psfx a c.
Proof.
  intros [p ->] (q & Hq & ->). exists (q ++ p). split; [|apply app_assoc]. intros H. apply app_eq_nil in H. tauto.
Qed.
Lemma psfx_cons k r ts : wsfx r ts -> psfx r (k :: ts).
Proof. intros [p ->]. exists (k :: p). split; [discriminate|reflexivity]. Qed.
Lemma wsfx_cons k r ts : wsfx r ts -> wsfx r (k :: ts).
Proof. intros H. apply psfx_wsfx, psfx_cons, H. Qed.
Lemma psfx_length r ts : psfx r ts -> (length r < length ts)%nat.
Proof. intros (p & Hp & ->). rewrite app_length. destruct p; [congruence|cbn; lia]. Qed.
Lemma wsfx_length r ts : wsfx r ts -> (length r <= length ts)%nat.
Proof. intros [p ->]. rewrite app_length. lia. Qed.
Lemma wsfx_toks r ts : wsfx r ts -> Forall tok_ok ts -> Forall tok_ok r.
Proof. intros [p ->] H. apply Forall_app in H. tauto. Qed.
Lemma psfx_toks r ts : psfx r ts -> Forall tok_ok ts -> Forall tok_ok r.
Proof. intros H. apply wsfx_toks, psfx_wsfx, H. Qed.
Global Hint Resolve wsfx_refl psfx_cons wsfx_cons psfx_wsfx : sfx.

(** a value satisfying [P] and something consumed, or an error *)
Definition pgood {A} (P : A -> Prop) (ts : list tok) (r : pr A) : Prop :=
  match r with
  | POk a r' => P a /\ psfx r' ts
  | PErr _ => True
  | PPanic | PFuel => False
  end.
Lemma unexpected_good {A} (P : A -> Prop) ts0 ts : pgood P ts0 (unexpected ts).
Proof. destruct ts as [|[] ts]; exact I. Qed.
Lemma pgood_map {A B} (P : A -> Prop) (Q : B -> Prop) (g : A -> B) ts r :
  pgood P ts r -> (forall a, P a -> Q (g a)) -> pgood Q ts (pbind r (fun a r' => POk (g a) r')).
Proof. destruct r; cbn; auto. intros [H1 H2] H. auto. Qed.
Lemma pgood_bind {A B} (P : A -> Prop) (Q : B -> Prop) ts r k :
  pgood P ts r -> (forall a r', P a -> psfx r' ts -> pgood Q ts (k a r')) -> pgood Q ts (pbind r k).
Proof. destruct r; cbn; auto. intros [H1 H2] H. auto. Qed.
Lemma pgood_sfx {A} (P : A -> Prop) ts ts' r : pgood P ts r -> wsfx ts ts' -> pgood P ts' r.
Proof. destruct r; cbn; auto. intros [H1 H2] H. split; [exact H1|]. eapply psfx_trans; eassumption. Qed.
Lemma pgood_impl {A} (P Q : A -> Prop) ts r : pgood P ts r -> (forall a, P a -> Q a) -> pgood Q ts r.
Proof. destruct r; cbn; auto. intros [H1 H2] H. auto. Qed.

(** ** Scalars *)
Lemma round_bits_bound p emin inf n d : round_bits p emin inf n d <= inf.
Proof.
  unfold round_bits. destruct (n =? 0); [lia|]. set (x := N.shiftl _ _ + _). clearbody x.
  destruct (N.leb_spec inf x); lia.
Qed.
Lemma f64_parse_bound s : f64_parse s <= inf64.
Proof.
  unfold f64_parse, dec_parse. destruct (span is_digit s) as [i r1].
  destruct (match r1 with 46 :: r => span is_digit r | _ => ([], r1) end) as [f r2].
  unfold dec_round. destruct (_ <=? _)%Z; apply round_bits_bound.
Qed.
Lemma f64_neg_bound b : b < two64 -> f64_neg b < two64.
Proof. unfold f64_neg, sign64, two64. intros H. destruct (N.ltb_spec b 9223372036854775808); lia. Qed.
Lemma f64_to_f32_bound b : f64_to_f32 b < two32.
Proof.
  unfold f64_to_f32.
  set (s := if b <? sign64 then 0 else sign32).
  assert (s <= sign32) by (subst s; destruct (b <? sign64); unfold sign32; lia). clearbody s.
  assert (forall n d, round32 n d <= inf32) as R by (intros; apply round_bits_bound).
  unfold inf32, nan32, sign32, two32 in *.
  destruct (_ =? 2047); [destruct (_ =? 0); lia|].
  destruct (_ <=? _)%Z; match goal with |- s + round32 ?n ?d < _ => specialize (R n d); lia end.
Qed.

Lemma parse_float_good ts : pgood (fun b => b < two64) ts (parse_float ts).
Proof.
  unfold parse_float. destruct ts as [|k ts0]; [exact I|].
  assert (N64 : forall (neg : bool) b, b <= inf64 \/ b = nan64 -> (if neg then f64_neg b else b) < two64).
  { intros neg b Hb. assert (b < two64) by (unfold inf64, nan64, two64 in *; lia). destruct neg; [now apply f64_neg_bound|assumption]. }
  assert (G : forall (neg : bool) r, wsfx r (k :: ts0) ->
    pgood (fun b => b < two64) (k :: ts0)
      (match r with
       | TFloat s :: r' => POk (if neg then f64_neg (f64_parse s) else f64_parse s) r'
       | TInt s 10 :: r' => POk (if neg then f64_neg (f64_parse s) else f64_parse s) r'
       | TIdent s :: r' =>
           if eq_ignore_case s (s2b "inf") || eq_ignore_case s (s2b "infinity") then POk (if neg then f64_neg inf64 else inf64) r'
           else if eq_ignore_case s (s2b "nan") then POk (if neg then f64_neg nan64 else nan64) r'
           else PErr PUnexpected
       | _ => unexpected r
       end)).
  { intros neg r Hr. assert (forall x r', r = x :: r' -> psfx r' (k :: ts0)) as Hx.
    { intros x r' ->. eapply psfx_trans; [apply psfx_cons, wsfx_refl|exact Hr]. }
    destruct r as [|x r']; [exact I|]. specialize (Hx _ _ eq_refl).
    destruct x; try apply unexpected_good.
    - destruct (_ || _); [split; [apply N64; left; reflexivity|exact Hx]|].
      destruct (eq_ignore_case s _); [split; [apply N64; right; reflexivity|exact Hx]|exact I].
    - assert (psfx r' (k :: ts0) -> pgood (fun b => b < two64) (k :: ts0) (POk (if neg then f64_neg (f64_parse digits) else f64_parse digits) r')) as Q.
      { intros Hq. split; [apply N64; left; apply f64_parse_bound|exact Hq]. }
      destruct radix as [|p]; [apply unexpected_good|]. do 4 (destruct p as [p|p|]; try apply unexpected_good). apply Q, Hx.
    - split; [apply N64; left; apply f64_parse_bound|exact Hx]. }
  destruct k; try exact (G false _ (wsfx_refl _)). exact (G true ts0 (wsfx_cons _ _ _ (wsfx_refl _))).
Qed.
Lemma parse_int_good ts : pgood (fun _ => True) ts (parse_int ts).
Proof.
  unfold parse_int. destruct ts as [|k ts0]; [exact I|].
  destruct k; cbn; auto with sfx. destruct ts0 as [|[] ts0]; cbn; auto with sfx.
Qed.
Lemma parse_signed_good half ts : pgood (fun z => (- Z.of_N half <= z < Z.of_N half)%Z) ts (parse_signed half ts).
Proof.
  unfold parse_signed. eapply pgood_bind; [apply parse_int_good|]. intros [neg n] r _ Hr. cbn [fst snd].
  destruct neg.
  - destruct (N.ltb_spec n (2 * half)); [|exact I]. destruct (N.eqb_spec n half); [split; [lia|exact Hr]|].
    destruct (N.ltb_spec n half); [|exact I]. split; [lia|exact Hr].
  - destruct (N.ltb_spec n half); [|exact I]. split; [lia|exact Hr].
Qed.
Lemma parse_unsigned_good size ts : pgood (fun n => n < size) ts (parse_unsigned size ts).
Proof.
  unfold parse_unsigned. eapply pgood_bind; [apply parse_int_good|]. intros [neg n] r _ Hr. cbn [fst snd].
  destruct neg; [exact I|]. destruct (N.ltb_spec n size); [|exact I]. split; [lia|exact Hr].
Qed.
Lemma parse_bool_good ts : pgood (fun _ => True) ts (parse_bool ts).
Proof.
  unfold parse_bool. destruct ts as [|[] ts0]; try exact I.
  - destruct (_ || _); [split; auto with sfx|]. destruct (_ || _); [split; auto with sfx|exact I].
  - destruct (_ =? 1); [split; auto with sfx|]. destruct (_ =? 0); [split; auto with sfx|exact I].
Qed.
Lemma more_strings_good ts : forall acc, Forall tok_ok ts -> bytes_ok acc ->
  match more_strings acc ts with
  | POk a r => bytes_ok a /\ wsfx r ts
  | PErr _ => True
  | _ => False
  end.
Proof.
  induction ts as [|k ts IH]; intros acc Ht Ha; cbn [more_strings]; [auto with sfx|].
  inversion Ht as [|? ? Hk Ht']; subst. destruct k; auto with sfx.
  specialize (IH (acc ++ s) Ht'). destruct (more_strings (acc ++ s) ts); try (apply IH, bytes_ok_app; auto).
  destruct IH as [I1 I2]; [apply bytes_ok_app; auto|]. auto with sfx.
Qed.
Lemma parse_bytes_good ts : Forall tok_ok ts -> pgood bytes_ok ts (parse_bytes ts).
Proof.
  intros Ht. unfold parse_bytes. destruct ts as [|k ts]; [exact I|]. inversion Ht as [|? ? Hk Ht']; subst.
  destruct k; try apply unexpected_good. pose proof (more_strings_good ts s Ht' Hk) as H.
  destruct (more_strings s ts); cbn in *; try contradiction; auto. destruct H. auto with sfx.
Qed.

Section Safe.
  Variable t : tables.
  Hypothesis Hw : wf t.
  Let Ht : tables_ok t := proj1 Hw.

  Lemma enum_number_ok e name z : kind_okb t (KEnum e) = true -> enum_number t e name = Some z -> i32_ok z = true.
  Proof.
    cbn [kind_okb]. unfold enum_number. destruct (nth_error (t_enums t) e) as [en|]; [|discriminate].
    intros H. apply andb_true_iff in H. destruct H as [_ H]. rewrite forallb_forall in H.
    destruct (assoc_s name (e_names en)) as [i|]; [|discriminate].
    destruct (nth_error (e_values en) i) as [v|] eqn:E; [|discriminate]. intros [= <-]. apply H. eapply nth_error_In; exact E.
  Qed.
  Lemma parse_enum_good e ts : kind_okb t (KEnum e) = true -> pgood (fun z => i32_ok z = true) ts (parse_enum t e ts).
  Proof.
    intros Hk. unfold parse_enum.
    assert (S : forall ts, pgood (fun z => i32_ok z = true) ts (parse_signed 2147483648 ts)).
    { intros ts'. eapply pgood_impl; [apply parse_signed_good|]. cbv beta. intros z Hz. unfold i32_ok. lia. }
    destruct ts as [|k ts]; [exact I|]. destruct k; try apply unexpected_good; try apply S.
    destruct (enum_number t e s) as [z|] eqn:E; [|exact I]. split; [eapply enum_number_ok; eassumption|]. auto with sfx.
  Qed.
  Lemma parse_scalar_good k ts : kind_okb t k = true -> kind_msg k = None -> Forall tok_ok ts ->
    pgood (fun v => sc_okb k v = true) ts (parse_scalar t k ts).
  Proof.
    intros Hk Hm Hts.
    destruct k; try discriminate Hm; cbn [parse_scalar].
    all: try (eapply pgood_map; [apply parse_float_good|]; cbv beta; intros a Ha; cbn [sc_okb];
              unfold u64_ok, u32_ok; apply N.ltb_lt; try apply f64_to_f32_bound; exact Ha).
    all: try (eapply pgood_map; [apply parse_signed_good|]; cbv beta; intros a Ha; cbn [sc_okb];
              unfold i32_ok, i64_ok, two31, two63 in *; lia).
    all: try (eapply pgood_map; [apply parse_unsigned_good|]; cbv beta; intros a Ha; cbn [sc_okb];
              unfold u32_ok, u64_ok, two31, two63, two32, two64 in *; lia).
    - eapply pgood_map; [apply parse_bool_good|]. reflexivity.
    - eapply pgood_bind; [apply parse_bytes_good, Hts|]. intros s r Hs Hr. destruct (utf8_valid s) eqn:E; [|exact I].
      split; [|exact Hr]. cbn [sc_okb]. rewrite E, andb_true_r. now apply bytes_okb_ok.
    - eapply pgood_map; [apply parse_bytes_good, Hts|]. intros s Hs. cbn [sc_okb]. now apply bytes_okb_ok.
    - eapply pgood_map; [apply parse_enum_good, Hk|]. intros z Hz. exact Hz.
  Qed.

  (** ** Field names *)
  Definition ascii (s : str) : Prop := Forall (fun c => c < 128) s.
  Lemma more_ident_good terms ts : forall acc, Forall tok_ok ts -> ascii acc ->
    match more_ident terms acc ts with
    | POk a r => ascii a /\ wsfx r ts
    | PErr _ => True
    | _ => False
    end.
  Proof.
    remember (length ts) as n eqn:En. revert ts En.
    induction n as [n IH] using (well_founded_induction lt_wf). intros ts -> acc Hts Ha.
    assert (D : match (if terms ts then POk acc ts else unexpected ts) with
                | POk a r => ascii a /\ wsfx r ts | PErr _ => True | _ => False end).
    { destruct (terms ts); [split; auto with sfx|]. destruct ts as [|[] ts]; exact I. }
    destruct ts as [|k ts]; [exact D|]. cbn [more_ident] in *. destruct k; try exact D.
    destruct ts as [|k2 ts]; [exact I|]. destruct k2; try exact I.
    inversion Hts as [|? ? _ Hts1]; subst. inversion Hts1 as [|? ? Hs Hts2]; subst.
    specialize (IH (length ts) ltac:(cbn; lia) ts eq_refl (acc ++ 46 :: s) Hts2).
    assert (ascii (acc ++ 46 :: s)) as Ha' by (apply Forall_app; split; [exact Ha|constructor; [lia|exact Hs]]).
    specialize (IH Ha'). destruct (more_ident terms (acc ++ 46 :: s) ts); auto. destruct IH as [I1 I2]. auto with sfx.
  Qed.
  Lemma full_ident_good terms ts : Forall tok_ok ts -> pgood ascii ts (full_ident terms ts).
  Proof.
    intros Hts. unfold full_ident. destruct ts as [|k ts]; [exact I|]. destruct k; try apply unexpected_good.
    inversion Hts as [|? ? Hs Hts']; subst. pose proof (more_ident_good terms ts s Hts' Hs) as H.
    destruct (more_ident terms s ts); cbn in *; auto. destruct H. auto with sfx.
  Qed.
  Definition fname_ok (nm : fname) : Prop := match nm with FAny a b => ascii a /\ ascii b | _ => True end.
  Lemma field_name_good ts : Forall tok_ok ts -> pgood fname_ok ts (field_name ts).
  Proof.
    intros Hts. unfold field_name. destruct ts as [|k ts]; [exact I|]. destruct k; try apply unexpected_good; [split; auto with sfx; exact I|].
    inversion Hts as [|? ? _ Hts']; subst.
    eapply pgood_bind; [eapply pgood_sfx; [apply full_ident_good, Hts'|apply wsfx_cons, wsfx_refl]|]. intros s r1 Hs Hr1.
    pose proof (psfx_toks _ _ Hr1 Hts) as Ht1.
    destruct r1 as [|k1 r2]; [exact I|].
    assert (psfx r2 (TLBrack :: ts)) as Hr2 by (eapply psfx_trans'; [apply wsfx_cons, wsfx_refl|exact Hr1]).
    destruct k1; try apply unexpected_good; [split; [exact I|exact Hr2]|].
    eapply pgood_bind; [eapply pgood_sfx; [apply full_ident_good; eapply psfx_toks; [exact Hr2|exact Hts]|apply psfx_wsfx, Hr2]|].
    intros nm r3 Hnm Hr3. destruct r3 as [|k3 r4]; [exact I|]. destruct k3; try apply unexpected_good.
    split; [split; assumption|]. eapply psfx_trans'; [apply wsfx_cons, wsfx_refl|exact Hr3].
  Qed.
  Lemma field_sep_good ts : match field_sep ts with POk _ r => wsfx r ts | PErr _ => True | _ => False end.
  Proof. destruct ts as [|[] ts]; cbn; auto with sfx. Qed.

  (** the fields 1 and 2 of google.protobuf.Any, if there, are not repeated *)
  Hypothesis Hany : forall d n f, full_name t d = any_name -> n = 1 \/ n = 2 -> get_field t d n = Some f -> is_repeated f = false.
  (** no two extensions of one message share a number *)
  Hypothesis Hx : forall d, NoDup (map fd_number (msg_exts t d)).

  Lemma find_field_desc d s f : find_field t d s = Some f -> find_desc t d (fd_number f) = Some f.
  Proof.
    intros H. assert (exists s', get_field_by_name t d s' = Some f) as [s' E].
    { unfold find_field in H.
      assert (G : match get_field_by_name t d (lowercase s) with
                  | Some f0 => match fd_kind f0 with
                               | KGroup i => match nth_error (t_messages t) i with
                                             | Some m => if bytes_eqb s (id_name (m_id m)) then Some f0 else None
                                             | None => None
                                             end
                               | _ => None
                               end
                  | None => None
                  end = Some f -> exists s', get_field_by_name t d s' = Some f).
      { destruct (get_field_by_name t d (lowercase s)) as [f0|] eqn:E; [|discriminate].
        destruct (fd_kind f0); try discriminate. destruct (nth_error (t_messages t) _) as [m|]; [|discriminate].
        destruct (bytes_eqb s (id_name (m_id m))); [|discriminate]. intros [= <-]. exists (lowercase s). exact E. }
      destruct (get_field_by_name t d s) as [f0|] eqn:E; [|exact (G H)].
      destruct (fd_is_group f0); [exact (G H)|]. injection H as <-. exists s. exact E. }
    destruct (get_field_by_name_number _ _ _ _ Ht E) as [_ E']. unfold find_desc. rewrite E'. reflexivity.
  Qed.
  Lemma get_ext_full_desc d s f : get_ext_by_full t d s = Some f -> find_desc t d (fd_number f) = Some f.
  Proof.
    unfold get_ext_by_full. intros H. apply find_some in H. destruct H as [Hin _].
    assert (E : get_ext t d (fd_number f) = Some f).
    { unfold get_ext. specialize (Hx d). revert Hin Hx. generalize (msg_exts t d). clear. induction l as [|g l IH]; [intros []|].
      cbn [map In find]. intros [->|Hin] Hnd; [rewrite N.eqb_refl; reflexivity|]. inversion Hnd as [|? ? Hn Hnd']; subst.
      destruct (N.eqb_spec (fd_number g) (fd_number f)) as [Eq|_]; [|apply IH; assumption].
      exfalso. apply Hn. rewrite Eq. now apply in_map. }
    unfold find_desc. rewrite (field_ext_disjoint _ _ _ _ Hw E). exact E.
  Qed.

  (** ** Values, given that nested values are read well up to [n] tokens *)
  Definition mgood (d : nat) (ts : list tok) (r : mres) : Prop :=
    match r with
    | MOk m r' => msg_ok t m /\ dm_desc m = d /\ psfx r' ts
    | MErr _ m => msg_ok t m /\ dm_desc m = d
    | MPanic | MFuel => False
    end.
  Definition vgood (n : nat) (pv : kind -> list tok -> pr value) : Prop :=
    forall k ts, kind_okb t k = true -> Forall tok_ok ts -> (length ts <= n)%nat ->
      pgood (fun v => ok_elem t v k = true) ts (pv k ts).
  Lemma mbind_good {A} (P : A -> Prop) m ts r k : msg_ok t m -> pgood P ts r ->
    (forall a r', P a -> psfx r' ts -> mgood (dm_desc m) ts (k a r')) -> mgood (dm_desc m) ts (mbind m r k).
  Proof. intros Hm Hr H. destruct r; cbn in *; auto. destruct Hr. auto. Qed.
  Lemma mgood_sfx d ts ts' r : mgood d ts r -> wsfx ts ts' -> mgood d ts' r.
  Proof. destruct r; cbn; auto. intros (H1 & H2 & H3) H. split; [exact H1|]. split; [exact H2|]. eapply psfx_trans; eassumption. Qed.

  Section Nested.
    Variable n : nat.
    Variable pv : kind -> list tok -> pr value.
    Hypothesis Hpv : vgood n pv.

    Lemma list_rest_good k : kind_okb t k = true -> forall j acc ts, Forall tok_ok ts -> (length ts <= n)%nat ->
      (length ts < j)%nat -> Forall (fun v => ok_elem t v k = true) acc ->
      pgood (fun v => exists l, v = VList l /\ Forall (fun v => ok_elem t v k = true) l) ts (list_rest j pv k acc ts).
    Proof.
      intros Hk. induction j as [|j IH]; intros acc ts Hts Hn Hj Ha; [lia|]. cbn [list_rest].
      destruct ts as [|k0 ts]; [exact I|]. inversion Hts as [|? ? _ Hts']; subst.
      destruct k0; try apply unexpected_good.
      - split; [exists acc; auto|auto with sfx].
      - cbn [length] in Hn, Hj.
        pose proof (Hpv k ts Hk Hts' ltac:(lia)) as G.
        eapply pgood_bind; [eapply pgood_sfx; [exact G|apply wsfx_cons, wsfx_refl]|].
        intros v r Hv Hr. pose proof (psfx_length _ _ Hr) as L. cbn [length] in L.
        eapply pgood_sfx; [apply IH|apply psfx_wsfx, Hr]; try lia.
        + eapply psfx_toks; [exact Hr|exact Hts].
        + apply Forall_app. split; [exact Ha|]. constructor; [exact Hv|constructor].
    Qed.
    Definition elems (v : value) : list value := match v with VList l => l | _ => [v] end.
    Lemma elems_plain k v : ok_elem t v k = true -> elems v = [v].
    Proof. destruct v; try reflexivity. discriminate. Qed.
    Lemma repeated_good k ts : kind_okb t k = true -> Forall tok_ok ts -> (length ts <= n)%nat ->
      pgood (fun v => Forall (fun v => ok_elem t v k = true) (elems v)) ts (repeated_value pv k ts).
    Proof.
      intros Hk Hts Hn. assert (D : pgood (fun v => Forall (fun v => ok_elem t v k = true) (elems v)) ts (pv k ts)).
      { eapply pgood_impl; [apply Hpv; assumption|]. cbv beta. intros v Hv. rewrite (elems_plain _ _ Hv). constructor; [exact Hv|constructor]. }
      destruct ts as [|k0 ts]; [exact D|]. unfold repeated_value. destruct k0; try exact D.
      inversion Hts as [|? ? _ Hts']; subst. cbn [length] in Hn.
      assert (G : pgood (fun v => Forall (fun v => ok_elem t v k = true) (elems v)) (TLBrack :: ts)
                    (pbind (pv k ts) (fun v r' => list_rest (S (length r')) pv k [v] r'))).
      { eapply pgood_bind; [eapply pgood_sfx; [apply (Hpv k ts Hk Hts'); lia|apply wsfx_cons, wsfx_refl]|].
        intros v r Hv Hr. pose proof (psfx_length _ _ Hr) as L. cbn [length] in L.
        eapply pgood_sfx; [|apply psfx_wsfx, Hr].
        eapply pgood_impl; [apply list_rest_good|]; try lia; auto.
        - eapply psfx_toks; [exact Hr|exact Hts].
        - cbv beta. intros w (l & -> & Hl). exact Hl. }
      destruct ts as [|k1 ts]; [exact G|]. destruct k1; try exact G. split; [constructor|auto with sfx].
    Qed.

    (** one entry of a map *)
    Lemma unpack_good f e kf vf v : fdl_ok t f -> kind_msg (fd_kind f) = Some e ->
      entry_key t e = Some kf -> entry_value t e = Some vf ->
      is_repeated kf = false -> is_repeated vf = false -> (exists k0, mk_default (fd_kind kf) = Some k0) ->
      ok_elem t v (fd_kind f) = true ->
      exists k x, unpack t v = UEntry k x /\ mk_okb (fd_kind kf) k = true /\ ok_elem t x (fd_kind vf) = true.
    Proof.
      intros Hfo Hk Ek Ev Rk Rv (k0 & Hk0) Hv.
      destruct (ok_elem_msg_inv _ _ _ _ Hk Hv) as (m & -> & Hd & Hok). apply ok_msg_iff in Hok.
      unfold entry_key in Ek. unfold entry_value in Ev. cbn [unpack]. unfold get_field_by_number. rewrite Hd, Ek, Ev. cbn [option_map].
      assert (Nrep : forall g n0, get_field t e n0 = Some g -> is_repeated g = false -> ok_elem t (get_field_value t m g) (fd_kind g) = true).
      { intros g n0 Hg Hr. pose proof (get_field_number _ _ _ _ Ht Hg) as Hn0.
        assert (Hfd : find_desc t (dm_desc m) (fd_number g) = Some g) by (unfold find_desc; rewrite Hd, Hn0, Hg; reflexivity).
        destruct m as [d fs]. pose proof (stored_ok t Hw d fs g Hok Hfd) as S. unfold get_field_value. cbn [dm_fields].
        assert (fd_is_list g = false) as L by (now apply is_list_repeated).
        assert (fd_is_map g = false) as M by (eapply (get_field_map t Hw); eassumption).
        destruct (fs_get t g fs) as [| | | | | | | | | | |l|l]; cbn [ok_field] in S; rewrite ?L, ?M in S; try exact S; try discriminate.
        destruct (kind_msg (fd_kind g)); discriminate. }
      pose proof (Nrep _ _ Ek Rk) as K1. pose proof (Nrep _ _ Ev Rv) as K2.
      assert (sc_okb (fd_kind kf) (get_field_value t m kf) = true) as S1.
      { apply (ok_elem_scalar t); [|exact K1]. destruct (fd_kind kf); try reflexivity; discriminate. }
      destruct (value_mk_ok _ _ _ (mk_default_ok _ _ Hk0) S1) as (key & -> & Hkey).
      exists key, (get_field_value t m vf). auto.
    Qed.

    Lemma insert_all_good f e kf vf m ts : msg_ok t m -> find_desc t (dm_desc m) (fd_number f) = Some f ->
      kind_msg (fd_kind f) = Some e -> fd_is_map f = true -> entry_key t e = Some kf -> entry_value t e = Some vf ->
      is_repeated kf = false -> is_repeated vf = false -> (exists k0, mk_default (fd_kind kf) = Some k0) ->
      forall vs kvs, Forall (fun v => ok_elem t v (fd_kind f) = true) vs -> ok_field t f (VMap kvs) = true ->
      match insert_all t (fun kvs => with_fields m (fs_put f (VMap kvs) (fs_get_mut t f (dm_fields m)))) kvs vs ts with
      | MOk m' r => msg_ok t m' /\ dm_desc m' = dm_desc m /\ r = ts
      | MErr _ m' => msg_ok t m' /\ dm_desc m' = dm_desc m
      | _ => False
      end.
    Proof.
      intros Hm Hfd Hk Hmap Ek Ev Rk Rv Hk0. pose proof (find_desc_ok _ _ _ _ Ht Hfd) as Hfo.
      assert (Put : forall kvs, ok_field t f (VMap kvs) = true ->
        msg_ok t (with_fields m (fs_put f (VMap kvs) (fs_get_mut t f (dm_fields m))))).
      { intros kvs Hkvs. destruct m as [d fs]. cbn [with_fields dm_desc dm_fields] in *.
        eapply assigned_ok; [exact Ht|exact Hm|exact Hfd|exact Hkvs|]. apply assigned_put. exact (mo_sorted _ _ Hm). }
      induction vs as [|v vs IH]; intros kvs Hvs Hkvs; cbn [insert_all]; [auto|].
      inversion Hvs as [|? ? Hv Hvs']; subst.
      destruct (unpack_good f e kf vf v Hfo Hk Ek Ev Rk Rv Hk0 Hv) as (k & x & -> & Okk & Okx).
      apply IH; [exact Hvs'|]. cbn [ok_field] in *. rewrite Hk, Hmap, Ek, Ev in *.
      apply andb_true_iff in Hkvs. destruct Hkvs as [H1 H2]. apply andb_true_iff. split; [now apply map_insert_nodup|].
      rewrite forallb_forall in *. intros kv Hin. apply map_insert_In in Hin. destruct Hin as [->|Hin]; [|now apply H2].
      cbn [fst snd]. rewrite Okk, Okx. reflexivity.
    Qed.

    Lemma field_value_good m f ts : msg_ok t m -> find_desc t (dm_desc m) (fd_number f) = Some f ->
      Forall tok_ok ts -> (length ts <= n)%nat -> mgood (dm_desc m) ts (field_value_in t pv m f ts).
    Proof.
      intros Hm Hfd Hts Hn. pose proof (find_desc_ok _ _ _ _ Ht Hfd) as Hfo. pose proof (find_desc_shape _ _ _ _ Hw Hfd) as Hsh.
      pose proof (fo_kind _ _ Hfo) as Hk. unfold field_value_in.
      assert (Sto : ok_field t f (fs_get t f (fs_get_mut t f (dm_fields m))) = true).
      { rewrite get_mut_get_self. destruct m as [d fs]. now apply (stored_ok t Hw d fs f). }
      destruct (fd_is_list f) eqn:El.
      - eapply mbind_good; [exact Hm|apply repeated_good; assumption|]. intros v r Hv Hr.
        destruct (fs_get t f (fs_get_mut t f (dm_fields m))) as [| | | | | | | | | | |l|l] eqn:Eg; cbn [ok_field] in Sto; rewrite ?El in Sto; try discriminate.
        + cbn [mgood]. split; [|split; [reflexivity|exact Hr]].
          destruct m as [d fs]. cbn [with_fields dm_desc dm_fields] in *.
          eapply assigned_ok; [exact Ht|exact Hm|exact Hfd| |apply assigned_put; exact (mo_sorted _ _ Hm)].
          cbn [ok_field]. rewrite El. cbn [andb] in *. apply forallb_forall. intros x Hin. apply in_app_iff in Hin.
          rewrite forallb_forall in Sto. destruct Hin as [Hin|Hin]; [auto|]. rewrite Forall_forall in Hv. apply Hv. exact Hin.
        + exfalso. unfold fd_is_list in El. apply andb_true_iff in El. destruct El as [_ El]. apply negb_true_iff in El.
          rewrite El in Sto. destruct (kind_msg (fd_kind f)); discriminate.
      - destruct (fd_is_map f) eqn:Em.
        + destruct (fs_map _ _ Hsh Em) as (e & kf & vf & k0 & Hke & Ek & Ev & Hk0 & Rk & Rv).
          eapply mbind_good; [exact Hm|apply repeated_good; assumption|]. intros v r Hv Hr.
          destruct (fs_get t f (fs_get_mut t f (dm_fields m))) as [| | | | | | | | | | |l|l] eqn:Eg; cbn [ok_field] in Sto; rewrite ?El, ?Em in Sto; try discriminate.
          pose proof (insert_all_good f e kf vf m r Hm Hfd Hke Em Ek Ev Rk Rv (ex_intro _ _ Hk0) (elems v) l Hv) as G.
          cbn [ok_field] in G. rewrite Em in G. specialize (G Sto). unfold elems in G.
          destruct (insert_all t _ l _ r); cbn [mgood]; try exact G. destruct G as (G1 & G2 & ->). auto.
        + eapply mbind_good; [exact Hm|apply Hpv; assumption|]. intros v r Hv Hr.
          destruct (fs_has t f (dm_fields m)); [split; [exact Hm|reflexivity]|].
          destruct (match fd_oneof f with Some nums => existsb (has_field_by_number t m) nums | None => false end); [split; [exact Hm|reflexivity]|].
          cbn [mgood]. split; [|split; [reflexivity|exact Hr]].
          destruct m as [d fs]. cbn [with_fields dm_desc dm_fields] in *.
          eapply assigned_ok; [exact Ht|exact Hm|exact Hfd| |apply assigned_set; exact (mo_sorted _ _ Hm)].
          rewrite ok_field_plain by (eapply ok_elem_plain; exact Hv). rewrite El, Em. exact Hv.
    Qed.

    Lemma ascii_string a : ascii a -> bytes_ok a /\ utf8_valid a = true.
    Proof.
      induction a as [|c a IH]; intros H; [split; [constructor|reflexivity]|]. inversion H as [|? ? Hc Ha']; subst.
      destruct (IH Ha') as [I1 I2]. split; [constructor; [lia|exact I1]|]. cbn [utf8_valid].
      destruct (N.ltb_spec c 128); [exact I2|lia].
    Qed.
    Lemma try_set_good m n0 v : msg_ok t m -> full_name t (dm_desc m) = any_name -> n0 = 1 \/ n0 = 2 ->
      plain v = true -> (forall k, is_valid v k = true -> ok_elem t v k = true) ->
      msg_ok t (snd (try_set_field_by_number t m n0 v)) /\ dm_desc (snd (try_set_field_by_number t m n0 v)) = dm_desc m.
    Proof.
      intros Hm Hn Hn0 Hp Hv. unfold try_set_field_by_number. destruct (get_field t (dm_desc m) n0) as [f|] eqn:E; [|split; [exact Hm|reflexivity]].
      unfold try_set_field. destruct (is_valid_for t f v) eqn:Ev; [|split; [exact Hm|reflexivity]]. cbn [snd]. split; [|reflexivity].
      pose proof (get_field_number _ _ _ _ Ht E) as En. pose proof (Hany _ _ _ Hn Hn0 E) as R.
      destruct m as [d fs]. cbn [with_fields dm_desc dm_fields] in *.
      eapply assigned_ok; [exact Ht|exact Hm| | |apply assigned_set; exact (mo_sorted _ _ Hm)].
      - unfold find_desc. cbn [dm_desc]. rewrite En, E. reflexivity.
      - rewrite ok_field_plain by exact Hp. rewrite (is_list_repeated _ R). rewrite (get_field_map t Hw _ _ _ E R). cbn [negb andb].
        apply Hv. destruct v; try discriminate Hp; exact Ev.
    Qed.
    Lemma find_msg_from_lt l : forall i name j, find_msg_from i l name = Some j -> (i <= j < i + length l)%nat.
    Proof.
      induction l as [|m l IH]; intros i name j; cbn [find_msg_from length]; [discriminate|].
      destruct (bytes_eqb _ _); [intros [= <-]; lia|]. intros H. apply IH in H. lia.
    Qed.

    Lemma any_good m dom name ts : msg_ok t m -> ascii dom -> ascii name -> Forall tok_ok ts -> (length ts <= n)%nat ->
      mgood (dm_desc m) ts (any_in t pv m dom name ts).
    Proof.
      intros Hm Hd Hnm Hts Hn. unfold any_in. destruct (find_msg t name) as [i|] eqn:Ei; [|split; [exact Hm|reflexivity]].
      apply find_msg_from_lt in Ei.
      eapply mbind_good; [exact Hm|apply Hpv; [cbn [kind_okb]; lia|exact Hts|exact Hn]|]. intros v r Hv Hr.
      destruct (ok_elem_msg_inv t v (KMessage i) i eq_refl Hv) as (body & -> & _ & Hb).
      destruct (ok_msg_enc t body Hw Hb) as (b & -> & Bb).
      destruct (bytes_eqb (full_name t (dm_desc m)) any_name) eqn:En; [|split; [exact Hm|reflexivity]].
      apply bytes_eqb_eq in En.
      assert (ascii (dom ++ 47 :: name)) as Hu by (apply Forall_app; split; [exact Hd|constructor; [lia|exact Hnm]]).
      destruct (ascii_string _ Hu) as [U1 U2].
      destruct (try_set_good m 1 (VString (dom ++ 47 :: name)) Hm En (or_introl eq_refl) eq_refl) as [M1 D1].
      { intros k Hk. destruct k; try discriminate Hk. cbn [ok_elem sc_okb]. rewrite U2, andb_true_r. now apply bytes_okb_ok. }
      destruct (try_set_field_by_number t m 1 (VString (dom ++ 47 :: name))) as [e1 m1]. cbn [snd] in M1, D1.
      destruct e1; [split; assumption|]. rewrite <- D1 in En.
      destruct (try_set_good m1 2 (VBytes b) M1 En (or_intror eq_refl) eq_refl) as [M2 D2].
      { intros k Hk. destruct k; try discriminate Hk. cbn [ok_elem sc_okb]. now apply bytes_okb_ok. }
      destruct (try_set_field_by_number t m1 2 (VBytes b)) as [e2 m2]. cbn [snd] in M2, D2. rewrite D1 in D2.
      destruct e2; cbn [mgood]; auto.
    Qed.

    Lemma field_end_good d ts r : mgood d ts r -> mgood d ts (field_end r).
    Proof.
      destruct r as [m ts'|e m| |]; cbn [mgood field_end]; auto. intros (H1 & H2 & H3).
      destruct ts' as [|k r']; [cbn [mgood]; auto|].
      destruct k; cbn [mgood]; auto; (split; [exact H1|]; split; [exact H2|]; eapply psfx_trans'; [apply wsfx_cons, wsfx_refl|exact H3]).
    Qed.

    Lemma parse_field_good m ts : msg_ok t m -> Forall tok_ok ts -> (length ts <= S n)%nat ->
      mgood (dm_desc m) ts (parse_field t pv m ts).
    Proof.
      intros Hm Hts Hn. unfold parse_field. eapply mbind_good; [exact Hm|apply field_name_good, Hts|]. intros nm r Hnm Hr.
      pose proof (field_sep_good r) as Hs. destruct (field_sep r) as [u r1|e| |]; cbn [mbind]; try contradiction; [|split; [exact Hm|reflexivity]].
      assert (psfx r1 ts) as Hr1 by (eapply psfx_trans'; eassumption).
      pose proof (psfx_toks _ _ Hr1 Hts) as Ht1. pose proof (psfx_length _ _ Hr1) as Hl.
      apply field_end_good.
      assert (N1 : msg_ok t m /\ dm_desc m = dm_desc m) by auto.
      destruct nm as [s|s|a b].
      - destruct (find_field t (dm_desc m) s) as [f|] eqn:Ef; [|exact N1].
        eapply mgood_sfx; [apply field_value_good; auto; [eapply find_field_desc; exact Ef|lia]|apply psfx_wsfx, Hr1].
      - destruct (get_ext_by_full t (dm_desc m) s) as [f|] eqn:Ef; [|exact N1].
        eapply mgood_sfx; [apply field_value_good; auto; [eapply get_ext_full_desc; exact Ef|lia]|apply psfx_wsfx, Hr1].
      - destruct Hnm as [A1 A2]. eapply mgood_sfx; [apply any_good; auto; lia|apply psfx_wsfx, Hr1].
    Qed.

    Lemma unexpected_in_good m ts0 ts : msg_ok t m -> mgood (dm_desc m) ts0 (unexpected_in m ts).
    Proof. intros Hm. destruct ts as [|[] ts]; split; auto. Qed.
    Lemma message_loop_good angle : forall j m ts, msg_ok t m -> Forall tok_ok ts -> (length ts <= S n)%nat -> (length ts < j)%nat ->
      mgood (dm_desc m) ts (message_loop j (parse_field t pv) angle m ts).
    Proof.
      induction j as [|j IH]; intros m ts Hm Hts Hn Hj; [lia|]. cbn [message_loop].
      assert (F : mgood (dm_desc m) ts
        match parse_field t pv m ts with MOk m' ts' => message_loop j (parse_field t pv) angle m' ts' | r => r end).
      { pose proof (parse_field_good m ts Hm Hts Hn) as G. destruct (parse_field t pv m ts) as [m' ts'|e m'| |]; auto.
        destruct G as (G1 & G2 & G3). rewrite <- G2. pose proof (psfx_length _ _ G3).
        eapply mgood_sfx; [apply IH; auto; try lia; eapply psfx_toks; eassumption|apply psfx_wsfx, G3]. }
      destruct ts as [|k ts]; [apply unexpected_in_good, Hm|].
      destruct k; try exact F.
      all: destruct (tok_is_close angle _); [split; [exact Hm|]; split; [reflexivity|auto with sfx]|apply unexpected_in_good, Hm].
    Qed.
    Lemma message_value_good m ts : msg_ok t m -> Forall tok_ok ts -> (length ts <= S (S n))%nat ->
      mgood (dm_desc m) ts (message_value (parse_field t pv) m ts).
    Proof.
      intros Hm Hts Hn. unfold message_value. destruct ts as [|k ts]; [apply unexpected_in_good, Hm|].
      inversion Hts as [|? ? _ Hts']; subst. cbn [length] in Hn.
      destruct k; try (apply unexpected_in_good, Hm);
        (eapply mgood_sfx; [apply message_loop_good; auto; lia|apply wsfx_cons, wsfx_refl]).
    Qed.

    Lemma fields_loop_good : forall j m ts, msg_ok t m -> Forall tok_ok ts -> (length ts <= S n)%nat -> (length ts < j)%nat ->
      match fields_loop j (parse_field t pv) m ts with
      | MOk m' r => msg_ok t m' /\ dm_desc m' = dm_desc m /\ r = []
      | MErr _ m' => msg_ok t m' /\ dm_desc m' = dm_desc m
      | MPanic | MFuel => False
      end.
    Proof.
      induction j as [|j IH]; intros m ts Hm Hts Hn Hj; [lia|]. cbn [fields_loop].
      assert (F : match
        match parse_field t pv m ts with MOk m' ts' => fields_loop j (parse_field t pv) m' ts' | r => r end with
        | MOk m' r => msg_ok t m' /\ dm_desc m' = dm_desc m /\ r = []
        | MErr _ m' => msg_ok t m' /\ dm_desc m' = dm_desc m
        | MPanic | MFuel => False
        end).
      { pose proof (parse_field_good m ts Hm Hts Hn) as G. destruct (parse_field t pv m ts) as [m' ts'|e m'| |]; auto.
        destruct G as (G1 & G2 & G3). rewrite <- G2. pose proof (psfx_length _ _ G3).
        apply IH; auto; try lia. eapply psfx_toks; eassumption. }
      destruct ts as [|k ts]; [auto|]. destruct k; exact F.
    Qed.
  End Nested.

  Lemma parse_value_good n : vgood n (parse_value t (S n)).
  Proof.
    induction n as [|n IH]; intros k ts Hk Hts Hn.
    - assert (ts = []) as -> by (destruct ts; [reflexivity|cbn in Hn; lia]).
      cbn [parse_value]. destruct (kind_msg k) as [i|] eqn:Ek; [exact I|].
      eapply pgood_impl; [apply parse_scalar_good; auto|]. cbv beta. intros v. apply sc_ok_elem.
    - change (pgood (fun v => ok_elem t v k = true) ts
        match kind_msg k with
        | None => parse_scalar t k ts
        | Some i =>
            match message_value (parse_field t (parse_value t (S n))) (new_msg i) ts with
            | MOk m r => POk (VMessage m) r
            | MErr e _ => PErr e
            | MPanic => PPanic
            | MFuel => PFuel
            end
        end).
      destruct (kind_msg k) as [i|] eqn:Ek.
      + assert (Hi : (i < length (t_messages t))%nat) by (destruct k; try discriminate Ek; injection Ek as <-; cbn [kind_okb] in Hk; lia).
        pose proof (message_value_good n _ IH (new_msg i) ts (new_msg_ok t i Hi) Hts ltac:(lia)) as G.
        destruct (message_value _ (new_msg i) ts) as [m r|e m| |]; cbn [mgood pgood] in *; auto.
        destruct G as (G1 & G2 & G3). split; [|exact G3]. rewrite ok_elem_msg, Ek, G2, Nat.eqb_refl. now apply ok_msg_iff.
      + eapply pgood_impl; [apply parse_scalar_good; auto|]. cbv beta. intros v. apply sc_ok_elem.
  Qed.

  Lemma merge_tokens_good m ts : msg_ok t m -> Forall tok_ok ts ->
    match merge_tokens t m ts with
    | MOk m' r => msg_ok t m' /\ dm_desc m' = dm_desc m /\ r = []
    | MErr _ m' => msg_ok t m' /\ dm_desc m' = dm_desc m
    | MPanic | MFuel => False
    end.
  Proof.
    intros Hm Hts. unfold merge_tokens. destruct ts as [|k ts]; [cbn [length fields_loop]; auto|].
    apply (fields_loop_good (length ts)); auto. apply parse_value_good.
  Qed.
  Lemma merge_text_good m s : msg_ok t m -> bytes_ok s ->
    match merge_text t m s with
    | MOk m' r => msg_ok t m' /\ dm_desc m' = dm_desc m /\ r = []
    | MErr _ m' => msg_ok t m' /\ dm_desc m' = dm_desc m
    | MPanic | MFuel => False
    end.
  Proof.
    intros Hm Hs. unfold merge_text. destruct (lex_total s) as [ks L]. rewrite L.
    apply merge_tokens_good; [exact Hm|]. eapply lex_ok; eassumption.
  Qed.
End Safe.
