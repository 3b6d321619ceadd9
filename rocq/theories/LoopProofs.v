(** Generic lemmas about the decode loops of Wire.v. *)
From Verif Require Import Base BaseProofs Wire WireProofs.

Definition suffix (r b : bytes) : Prop := exists p, b = p ++ r.

Lemma suffix_refl b : suffix b b.
Proof. exists []. reflexivity. Qed.
Lemma suffix_trans a b c : suffix a b -> suffix b c -> suffix a c.
Proof. intros [p ->] [q ->]. exists (q ++ p). apply app_assoc. Qed.
Lemma suffix_length r b : suffix r b -> (length r <= length b)%nat.
Proof. intros [p ->]. rewrite app_length. lia. Qed.
Lemma suffix_ok r b : suffix r b -> bytes_ok b -> bytes_ok r.
Proof. intros [p ->] H. apply bytes_ok_app in H. tauto. Qed.

Lemma decode_varint_suffix b v r : decode_varint b = Ok (v, r) -> suffix r b.
Proof. intros H; apply decode_varint_split in H; destruct H as [p [-> _]]. exists p; reflexivity. Qed.
Lemma decode_key_suffix b n w r : decode_key b = Ok (n, w, r) -> suffix r b.
Proof. intros H; apply decode_key_split in H; destruct H as [p [-> _]]. exists p; reflexivity. Qed.
Lemma take_bytes_suffix n b s r : take_bytes n b = Ok (s, r) -> suffix r b.
Proof. intros H; apply take_bytes_inv in H; destruct H as [-> _]. exists s; reflexivity. Qed.
Lemma le_decode_suffix n b v r : le_decode n b = Ok (v, r) -> suffix r b.
Proof.
  unfold le_decode. intros H; apply rbind_ok in H; destruct H as [[s r'] [H1 H2]].
  injection H2 as <- <-. eapply take_bytes_suffix; exact H1.
Qed.
Lemma read_delimited_suffix b s r : read_delimited b = Ok (s, r) -> suffix r b.
Proof.
  unfold read_delimited. intros H; apply rbind_ok in H; destruct H as [[len r'] [H1 H2]].
  apply decode_varint_suffix in H1. apply take_bytes_suffix in H2.
  eapply suffix_trans; eassumption.
Qed.

Lemma take_bytes_app_ext n b s r x :
  take_bytes n b = Ok (s, r) -> take_bytes n (b ++ x) = Ok (s, r ++ x).
Proof.
  intros H. apply take_bytes_inv in H. destruct H as [-> H].
  rewrite <- app_assoc. apply take_bytes_app. symmetry; exact H.
Qed.
Lemma le_decode_app_ext n b v r x :
  le_decode n b = Ok (v, r) -> le_decode n (b ++ x) = Ok (v, r ++ x).
Proof.
  unfold le_decode. intros H; apply rbind_ok in H; destruct H as [[s r'] [H1 H2]].
  injection H2 as <- <-. rewrite (take_bytes_app_ext _ _ _ _ x H1). reflexivity.
Qed.
Lemma read_delimited_app_ext b s r x :
  read_delimited b = Ok (s, r) -> read_delimited (b ++ x) = Ok (s, r ++ x).
Proof.
  unfold read_delimited. intros H; apply rbind_ok in H; destruct H as [[len r'] [H1 H2]].
  rewrite (decode_varint_app _ _ _ x H1). cbn [rbind]. apply take_bytes_app_ext; exact H2.
Qed.
Lemma le_decode_nopanic n b : le_decode n b <> Panic /\ le_decode n b <> Fuel.
Proof.
  unfold le_decode. pose proof (take_bytes_nopanic n b) as [H1 H2].
  destruct (take_bytes n b) as [[s r]| | |]; cbn [rbind]; split; congruence.
Qed.
Lemma read_delimited_nopanic b : read_delimited b <> Panic /\ read_delimited b <> Fuel.
Proof.
  unfold read_delimited. pose proof (decode_varint_nopanic b) as [H1 H2].
  destruct (decode_varint b) as [[s r]| | |]; cbn [rbind]; try (split; congruence).
  apply take_bytes_nopanic.
Qed.

Lemma stream_loop_unfold {S} (step : S -> N -> wt -> bytes -> dres S) k s buf :
  buf <> [] ->
  stream_loop (Datatypes.S k) step s buf =
  match decode_key buf with
  | Ok (n, w, r) =>
      match step s n w r with
      | DOk s' r' => stream_loop k step s' r'
      | DErr e s' => DErr e s'
      | DPanic => DPanic
      | DFuel => DFuel
      end
  | Err e => DErr e s
  | Panic => DPanic
  | Fuel => DFuel
  end.
Proof. destruct buf; [congruence|reflexivity]. Qed.

(** ** Totality *)

(** A decode outcome that is neither a panic nor fuel exhaustion, keeps the
    state invariant, and leaves a suffix of the input. *)
Definition good {S} (Inv : S -> Prop) (b : bytes) (d : dres S) : Prop :=
  match d with
  | DOk s r => Inv s /\ suffix r b
  | DErr _ s => Inv s
  | DPanic | DFuel => False
  end.

Lemma good_weaken {S} (Inv Inv' : S -> Prop) b b' d :
  (forall s, Inv s -> Inv' s) -> suffix b b' -> good Inv b d -> good Inv' b' d.
Proof.
  intros HI Hs. destruct d; cbn; auto.
  intros [H1 H2]. split; [auto|]. eapply suffix_trans; eassumption.
Qed.

Lemma good_dlift {A S} (Inv : S -> Prop) b dflt (f : A -> S) r :
  r <> Panic /\ r <> Fuel -> Inv dflt ->
  (forall a rest, r = Ok (a, rest) -> Inv (f a) /\ suffix rest b) ->
  good Inv b (dlift dflt f r).
Proof.
  intros [H1 H2] Hd Hf. destruct r as [[a rest]| | |]; cbn; auto; congruence.
Qed.

Section Total.
  Context {S : Type} (Inv : S -> Prop).

  Lemma loop_until_good step L :
    (forall s b, Inv s -> bytes_ok b -> (1 <= length b <= L)%nat ->
       good Inv b (step s b) /\
       forall s' r, step s b = DOk s' r -> (length r < length b)%nat) ->
    forall k limit s b, Inv s -> bytes_ok b -> (length b <= L)%nat -> (length b <= k)%nat ->
      good Inv b (loop_until k step limit s b).
  Proof.
    intros Hstep. induction k as [|k IH]; intros limit s b Hi Hb HL Hk.
    - cbn [loop_until]. destruct (length b <=? limit)%nat eqn:E.
      + destruct (length b =? limit)%nat; cbn; [split; [exact Hi|apply suffix_refl]|exact Hi].
      + lia.
    - cbn [loop_until]. destruct (length b <=? limit)%nat eqn:E.
      + destruct (length b =? limit)%nat; cbn; [split; [exact Hi|apply suffix_refl]|exact Hi].
      + destruct (Hstep s b Hi Hb) as [Hg Hl]; [lia|].
        destruct (step s b) as [s' r|e s'| |] eqn:Es; cbn in Hg; auto.
        destruct Hg as [Hi' Hsuf]. specialize (Hl _ _ eq_refl).
        eapply good_weaken; [intros ? HH; exact HH|exact Hsuf|].
        apply IH; [exact Hi'|eapply suffix_ok; eassumption|lia|lia].
  Qed.

  Lemma merge_loop_good step b s :
    (forall s b', Inv s -> bytes_ok b' -> (1 <= length b' < length b)%nat ->
       good Inv b' (step s b') /\
       forall s' r, step s b' = DOk s' r -> (length r < length b')%nat) ->
    Inv s -> bytes_ok b -> good Inv b (merge_loop step s b).
  Proof.
    intros Hstep Hi Hb. unfold merge_loop.
    pose proof (decode_varint_nopanic b) as [H1 H2].
    destruct (decode_varint b) as [[len r]| | |] eqn:E; try exact Hi; try congruence.
    pose proof (decode_varint_suffix _ _ _ E) as Hsuf.
    pose proof (decode_varint_len _ _ _ E) as Hlen.
    destruct (N.of_nat (length r) <? len) eqn:E2; [exact Hi|].
    eapply good_weaken; [intros ? HH; exact HH|exact Hsuf|].
    apply loop_until_good with (L := length r); auto; [|eapply suffix_ok; eassumption].
    intros s0 b0 Hi0 Hb0 HL0. apply Hstep; auto. lia.
  Qed.

  Lemma group_loop_good step tag L :
    (forall s n w b, Inv s -> tag_ok n -> bytes_ok b -> (length b < L)%nat ->
       good Inv b (step s n w b)) ->
    forall k s b, Inv s -> bytes_ok b -> (length b <= L)%nat -> (length b < k)%nat ->
      good Inv b (group_loop k step tag s b).
  Proof.
    intros Hstep. induction k as [|k IH]; intros s b Hi Hb HL Hk; [lia|].
    cbn [group_loop]. pose proof (decode_key_nopanic b) as [H1 H2].
    destruct (decode_key b) as [[[n w] r]| | |] eqn:E; try exact Hi; try congruence.
    pose proof (decode_key_suffix _ _ _ _ E) as Hsuf.
    pose proof (decode_key_len _ _ _ _ E) as Hlen.
    pose proof (decode_key_tag_ok _ _ _ _ E) as Htag.
    assert (Hr : bytes_ok r) by (eapply suffix_ok; eassumption).
    destruct (wt_eqb w WEnd).
    - destruct (n =? tag); [split; assumption|exact Hi].
    - specialize (Hstep s n w r Hi Htag Hr ltac:(lia)).
      destruct (step s n w r) as [s' r'|e s'| |] eqn:Es; cbn in Hstep; auto.
      destruct Hstep as [Hi' Hsuf']. pose proof (suffix_length _ _ Hsuf').
      eapply good_weaken; [intros ? HH; exact HH|exact (suffix_trans _ _ _ Hsuf' Hsuf)|].
      apply IH; [exact Hi'|eapply suffix_ok; eassumption|lia|lia].
  Qed.

  Lemma stream_loop_good step L :
    (forall s n w b, Inv s -> tag_ok n -> bytes_ok b -> (length b < L)%nat ->
       good Inv b (step s n w b)) ->
    forall k s b, Inv s -> bytes_ok b -> (length b <= L)%nat -> (length b <= k)%nat ->
      good Inv b (stream_loop k step s b).
  Proof.
    intros Hstep. induction k as [|k IH]; intros s b Hi Hb HL Hk.
    { destruct b; cbn in *; [split; [exact Hi|apply suffix_refl]|lia]. }
    destruct (list_eq_dec N.eq_dec b []) as [->|Hne].
    { cbn; split; [exact Hi|apply suffix_refl]. }
    rewrite stream_loop_unfold by exact Hne.
    pose proof (decode_key_nopanic b) as [H1 H2].
    destruct (decode_key b) as [[[n w] r]| | |] eqn:E; try exact Hi; try congruence.
    pose proof (decode_key_suffix _ _ _ _ E) as Hsuf.
    pose proof (decode_key_len _ _ _ _ E) as Hlen.
    pose proof (decode_key_tag_ok _ _ _ _ E) as Htag.
    assert (Hr : bytes_ok r) by (eapply suffix_ok; eassumption).
    specialize (Hstep s n w r Hi Htag Hr ltac:(lia)).
    destruct (step s n w r) as [s' r'|e s'| |] eqn:Es; cbn in Hstep; auto.
    destruct Hstep as [Hi' Hsuf']. pose proof (suffix_length _ _ Hsuf').
    eapply good_weaken; [intros ? HH; exact HH|exact (suffix_trans _ _ _ Hsuf' Hsuf)|].
    apply IH; [exact Hi'|eapply suffix_ok; eassumption|lia|lia].
  Qed.
End Total.

(** ** Monotonicity and extension of the input *)

(** [d2] is what [d1] becomes when [x] is appended to the input (and possibly
    more fuel is given): a success stays the same success. *)
Definition dapp {S} (x : bytes) (d1 d2 : dres S) : Prop :=
  match d1 with
  | DOk s r => d2 = DOk s (r ++ x)
  | _ => True
  end.

Lemma loop_until_dapp {S} (step1 step2 : S -> bytes -> dres S) x :
  (forall s b, dapp x (step1 s b) (step2 s (b ++ x))) ->
  forall k1 k2 limit s b, (k1 <= k2)%nat ->
    dapp x (loop_until k1 step1 limit s b) (loop_until k2 step2 (limit + length x) s (b ++ x)).
Proof.
  intros Hstep. induction k1 as [|k1 IH]; intros k2 limit s b Hk.
  - cbn [loop_until]. destruct (length b <=? limit)%nat eqn:E; [|exact I].
    destruct (length b =? limit)%nat eqn:E1; [|exact I]. cbn.
    assert (HL : length (b ++ x) = (limit + length x)%nat) by (rewrite app_length; lia).
    destruct k2; cbn [loop_until]; rewrite HL, Nat.leb_refl, Nat.eqb_refl; reflexivity.
  - destruct k2 as [|k2]; [lia|]. cbn [loop_until].
    assert (HL : length (b ++ x) = (length b + length x)%nat) by apply app_length.
    rewrite HL.
    destruct (length b <=? limit)%nat eqn:E.
    + destruct (length b =? limit)%nat eqn:E1; [|exact I]. cbn.
      destruct (length b + length x <=? limit + length x)%nat eqn:E2; [|lia].
      destruct (length b + length x =? limit + length x)%nat eqn:E3; [reflexivity|lia].
    + destruct (length b + length x <=? limit + length x)%nat eqn:E2; [lia|].
      specialize (Hstep s b). destruct (step1 s b) as [s' r| | |]; try exact I.
      cbn in Hstep. rewrite Hstep. apply IH. lia.
Qed.

Lemma merge_loop_dapp {S} (step1 step2 : S -> bytes -> dres S) x s b :
  (forall s b, dapp x (step1 s b) (step2 s (b ++ x))) ->
  dapp x (merge_loop step1 s b) (merge_loop step2 s (b ++ x)).
Proof.
  intros Hstep. unfold merge_loop.
  destruct (decode_varint b) as [[len r]| | |] eqn:E; try exact I.
  rewrite (decode_varint_app _ _ _ x E). rewrite app_length.
  destruct (N.of_nat (length r) <? len) eqn:E2; [exact I|].
  destruct (N.of_nat (length r + length x) <? len) eqn:E3; [lia|].
  replace (length r + length x - N.to_nat len)%nat
    with (length r - N.to_nat len + length x)%nat by lia.
  apply loop_until_dapp; [exact Hstep|lia].
Qed.

Lemma group_loop_dapp {S} (step1 step2 : S -> N -> wt -> bytes -> dres S) x tag :
  (forall s n w b, dapp x (step1 s n w b) (step2 s n w (b ++ x))) ->
  forall k1 k2 s b, (k1 <= k2)%nat ->
    dapp x (group_loop k1 step1 tag s b) (group_loop k2 step2 tag s (b ++ x)).
Proof.
  intros Hstep. induction k1 as [|k1 IH]; intros k2 s b Hk; [exact I|].
  destruct k2 as [|k2]; [lia|]. cbn [group_loop].
  destruct (decode_key b) as [[[n w] r]| | |] eqn:E; try exact I.
  rewrite (decode_key_app _ _ _ _ x E).
  destruct (wt_eqb w WEnd); [destruct (n =? tag); [reflexivity|exact I]|].
  specialize (Hstep s n w r). destruct (step1 s n w r) as [s' r'| | |]; try exact I.
  cbn in Hstep. rewrite Hstep. apply IH. lia.
Qed.

(** A stream over [a ++ b] is the stream over [a] followed by the one over [b]. *)
Lemma stream_loop_split {S} (step1 step2 : S -> N -> wt -> bytes -> dres S) x :
  (forall s n w b, dapp x (step1 s n w b) (step2 s n w (b ++ x))) ->
  (forall s n w b s' r, step1 s n w b = DOk s' r -> (length r <= length b)%nat) ->
  forall k1 k2 s b s',
    stream_loop k1 step1 s b = DOk s' [] ->
    (length (b ++ x) <= k2)%nat ->
    exists k3, (length x <= k3)%nat /\
      stream_loop k2 step2 s (b ++ x) = stream_loop k3 step2 s' x.
Proof.
  intros Hstep Hshr. induction k1 as [|k1 IH]; intros k2 s b s' H Hk.
  - destruct b; cbn in H; [|discriminate]. injection H as <-.
    exists k2. cbn in *. split; [lia|reflexivity].
  - destruct b as [|b0 b1].
    + cbn in H. injection H as <-. exists k2. cbn in *. split; [lia|reflexivity].
    + rewrite app_length in Hk. destruct k2 as [|k2]; [cbn in Hk; lia|].
      cbn [app stream_loop] in *.
      destruct (decode_key (b0 :: b1)) as [[[n w] r]| | |] eqn:E; try discriminate.
      pose proof (decode_key_len _ _ _ _ E) as Hlen.
      rewrite app_comm_cons. rewrite (decode_key_app _ _ _ _ x E).
      specialize (Hstep s n w r).
      destruct (step1 s n w r) as [s1 r1| | |] eqn:Es; try discriminate.
      cbn in Hstep. rewrite Hstep. apply Hshr in Es. apply IH; [exact H|].
      rewrite app_length. cbn in Hk, Hlen. lia.
Qed.

Lemma stream_loop_fuel {S} (step : S -> N -> wt -> bytes -> dres S) :
  (forall s n w b s' r, step s n w b = DOk s' r -> (length r <= length b)%nat) ->
  forall k1 k2 s b, (length b <= k1)%nat -> (length b <= k2)%nat ->
    stream_loop k1 step s b = stream_loop k2 step s b.
Proof.
  intros Hshr. induction k1 as [|k1 IH]; intros k2 s b H1 H2.
  - destruct b; cbn in H1; [|lia]. destruct k2; reflexivity.
  - destruct b as [|b0 b1]; [destruct k2; reflexivity|].
    destruct k2 as [|k2]; [cbn in H2; lia|]. cbn [stream_loop].
    destruct (decode_key (b0 :: b1)) as [[[n w] r]| | |] eqn:E; try reflexivity.
    pose proof (decode_key_len _ _ _ _ E) as Hlen. cbn [length] in *.
    destruct (step s n w r) as [s1 r1| | |] eqn:Es; try reflexivity.
    apply Hshr in Es. apply IH; lia.
Qed.

(** ** Running the loops over encoded chunks *)

(** [eats step s chunk s']: [chunk] is a sequence of keyed fields, each
    consumed exactly by [step], taking the state from [s] to [s']. *)
Inductive eats {S} (step : S -> N -> wt -> bytes -> dres S) : S -> bytes -> S -> Prop :=
| eats_nil s : eats step s [] s
| eats_cons s n w body s1 chunk s2 :
    tag_ok n -> w <> WEnd ->
    (forall rest, step s n w (body ++ rest) = DOk s1 rest) ->
    eats step s1 chunk s2 ->
    eats step s (encode_key n w ++ body ++ chunk) s2.

Lemma eats_one {S} (step : S -> N -> wt -> bytes -> dres S) s n w body s1 :
  tag_ok n -> w <> WEnd ->
  (forall rest, step s n w (body ++ rest) = DOk s1 rest) ->
  eats step s (encode_key n w ++ body) s1.
Proof.
  intros. replace (encode_key n w ++ body) with (encode_key n w ++ body ++ [])
    by (rewrite app_nil_r; reflexivity).
  eapply eats_cons; eauto. constructor.
Qed.

Lemma eats_app {S} (step : S -> N -> wt -> bytes -> dres S) s1 c1 s2 c2 s3 :
  eats step s1 c1 s2 -> eats step s2 c2 s3 -> eats step s1 (c1 ++ c2) s3.
Proof.
  intros H H2; induction H; cbn; [exact H2|].
  rewrite <- !app_assoc. eapply eats_cons; eauto.
Qed.

Lemma key_app_nonempty n w l : exists b r, encode_key n w ++ l = b :: r.
Proof.
  pose proof (encode_key_nonempty n w). destruct (encode_key n w); cbn in *; [lia|eauto].
Qed.

Lemma stream_loop_eats {S} (step : S -> N -> wt -> bytes -> dres S) s chunk s' :
  eats step s chunk s' ->
  forall k, (length chunk <= k)%nat -> stream_loop k step s chunk = DOk s' [].
Proof.
  intros H; induction H as [s|s n w body s1 chunk s2 Ht Hw Hstep He IH]; intros k Hk.
  - destruct k; reflexivity.
  - pose proof (encode_key_nonempty n w) as Hne. rewrite !app_length in Hk.
    destruct k as [|k]; [lia|]. cbn [stream_loop].
    rewrite decode_encode_key by exact Ht. rewrite Hstep.
    rewrite IH by lia.
    destruct (key_app_nonempty n w (body ++ chunk)) as (b & r & ->). reflexivity.
Qed.

Lemma group_loop_eats {S} (step : S -> N -> wt -> bytes -> dres S) tag s chunk s' rest :
  eats step s chunk s' -> tag_ok tag ->
  forall k, (length (chunk ++ encode_key tag WEnd ++ rest) < k)%nat ->
    group_loop k step tag s (chunk ++ encode_key tag WEnd ++ rest) = DOk s' rest.
Proof.
  intros H Htag; induction H as [s|s n w body s1 chunk s2 Ht Hw Hstep He IH]; intros k Hk.
  - cbn [app] in *. destruct k as [|k]; [lia|]. cbn [group_loop].
    rewrite decode_encode_key by exact Htag. cbn. rewrite N.eqb_refl. reflexivity.
  - pose proof (encode_key_nonempty n w) as Hne. rewrite <- !app_assoc in *.
    rewrite !app_length in Hk.
    destruct k as [|k]; [lia|]. cbn [group_loop].
    rewrite decode_encode_key by exact Ht.
    destruct (wt_eqb w WEnd) eqn:E; [apply wt_eqb_eq in E; contradiction|].
    rewrite Hstep. apply IH. rewrite !app_length. lia.
Qed.

Lemma loop_until_eats {S} (step : S -> N -> wt -> bytes -> dres S) s chunk s' rest :
  eats step s chunk s' ->
  forall k, (length (chunk ++ rest) <= k)%nat ->
    loop_until k (keyed_step step) (length rest) s (chunk ++ rest) = DOk s' rest.
Proof.
  intros H; induction H as [s|s n w body s1 chunk s2 Ht Hw Hstep He IH]; intros k Hk.
  - cbn [app] in *. destruct k; cbn [loop_until]; rewrite Nat.leb_refl, Nat.eqb_refl; reflexivity.
  - pose proof (encode_key_nonempty n w) as Hne. rewrite <- !app_assoc in *.
    rewrite !app_length in Hk.
    destruct k as [|k]; [lia|]. cbn [loop_until].
    destruct (length (encode_key n w ++ body ++ chunk ++ rest) <=? length rest)%nat eqn:E.
    { rewrite !app_length in E. lia. }
    unfold keyed_step at 1. rewrite decode_encode_key by exact Ht. rewrite Hstep.
    apply IH. rewrite !app_length. lia.
Qed.

Lemma merge_loop_eats {S} (step : S -> N -> wt -> bytes -> dres S) s chunk s' rest :
  eats step s chunk s' -> N.of_nat (length chunk) < two64 ->
  merge_loop (keyed_step step) s (write_delimited chunk ++ rest) = DOk s' rest.
Proof.
  intros H HL. unfold merge_loop, write_delimited. rewrite <- app_assoc.
  rewrite decode_encode_varint by exact HL. rewrite app_length.
  destruct (N.of_nat (length chunk + length rest) <? N.of_nat (length chunk)) eqn:E; [lia|].
  replace (length chunk + length rest - N.to_nat (N.of_nat (length chunk)))%nat
    with (length rest) by lia.
  apply loop_until_eats; [exact H|]. rewrite app_length. lia.
Qed.

Lemma keyed_step_dapp {S} (step1 step2 : S -> N -> wt -> bytes -> dres S) x :
  (forall s n w b, dapp x (step1 s n w b) (step2 s n w (b ++ x))) ->
  forall s b, dapp x (keyed_step step1 s b) (keyed_step step2 s (b ++ x)).
Proof.
  intros H s b. unfold keyed_step.
  destruct (decode_key b) as [[[n w] r]| | |] eqn:E; try exact I.
  rewrite (decode_key_app _ _ _ _ x E). apply H.
Qed.

Lemma keyed_step_good {S} (Inv : S -> Prop) step L :
  (forall s n w b, Inv s -> tag_ok n -> bytes_ok b -> (length b < L)%nat ->
     good Inv b (step s n w b)) ->
  forall s b, Inv s -> bytes_ok b -> (length b <= L)%nat ->
    good Inv b (keyed_step step s b) /\
    forall s' r, keyed_step step s b = DOk s' r -> (length r < length b)%nat.
Proof.
  intros H s b Hi Hb HL. unfold keyed_step.
  pose proof (decode_key_nopanic b) as [H1 H2].
  destruct (decode_key b) as [[[n w] r]| | |] eqn:E; try (split; [exact Hi|discriminate]); try congruence.
  pose proof (decode_key_len _ _ _ _ E) as Hlen.
  pose proof (decode_key_suffix _ _ _ _ E) as Hsuf.
  assert (Hg : good Inv r (step s n w r)).
  { apply H; auto; [eapply decode_key_tag_ok; exact E|eapply suffix_ok; eassumption|lia]. }
  split.
  - eapply good_weaken; [intros ? HH; exact HH|exact Hsuf|exact Hg].
  - intros s' r' Hs. rewrite Hs in Hg. destruct Hg as [_ Hg].
    apply suffix_length in Hg. lia.
Qed.

Lemma stream_loop_rest {S} (step : S -> N -> wt -> bytes -> dres S) k : forall s b s' r,
  stream_loop k step s b = DOk s' r -> r = [].
Proof.
  induction k as [|k IH]; intros s b s' r; (destruct b as [|x b]; [cbn; congruence|]).
  - discriminate.
  - rewrite stream_loop_unfold by discriminate.
    destruct (decode_key (x :: b)) as [[[n w] r0]| | |]; try discriminate.
    destruct (step s n w r0) as [s1 r1| | |]; try discriminate. apply IH.
Qed.
