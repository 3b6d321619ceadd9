(** Merging is record by record: a successful merge splits its input into
    records, each merged on its own, and conversely. *)
From Verif Require Import Base BaseProofs Wire WireProofs LoopProofs Unknown UnknownProofs
  Value Descr Fields Codec DescrOk DescrProofs FieldsProofs LenProofs MergeProofs DepthProofs
  ExtendProofs RestrictProofs.

(** [runs step s cs s']: each chunk of [cs] is a key followed by a payload that
    [step] consumes entirely; the states are threaded from [s] to [s']. *)
Inductive runs {S} (step : S -> N -> wt -> bytes -> dres S) : S -> list bytes -> S -> Prop :=
| runs_nil s : runs step s [] s
| runs_cons s c n w p s1 cs s2 :
    decode_key c = Ok (n, w, p) -> step s n w p = DOk s1 [] -> runs step s1 cs s2 ->
    runs step s (c :: cs) s2.

Definition key_is (P : N -> wt -> Prop) (c : bytes) : Prop :=
  exists n w p, decode_key c = Ok (n, w, p) /\ P n w.

Lemma runs_app {S} (step : S -> N -> wt -> bytes -> dres S) s1 a s2 b s3 :
  runs step s1 a s2 -> runs step s2 b s3 -> runs step s1 (a ++ b) s3.
Proof. intros H1 H2. induction H1; cbn; [exact H2|]. econstructor; eauto. Qed.

Section Runs.
  Context {S : Type} (step : S -> N -> wt -> bytes -> dres S).
  Hypothesis Hext : forall x s n w b, dext x b (step s n w b) (step s n w (b ++ x)).
  Hypothesis Hrev : forall x s n w b, drev x (step s n w (b ++ x)) (step s n w b).

  Lemma step_suf s n w b : dsuf b (step s n w b).
  Proof. apply (Hext []). Qed.

  (** one record cut out of a longer buffer *)
  Lemma cut_record s b n w y s1 z :
    decode_key b = Ok (n, w, y) -> step s n w y = DOk s1 z ->
    exists c p, b = c ++ z /\ y = p ++ z /\ decode_key c = Ok (n, w, p) /\ step s n w p = DOk s1 [].
  Proof.
    intros Hk Hs. pose proof (step_suf s n w y) as Hz. rewrite Hs in Hz. cbn in Hz. destruct Hz as (p & ->).
    pose proof (decode_key_suffix _ _ _ _ Hk) as (q & ->).
    exists (q ++ p), p. rewrite <- app_assoc. split; [reflexivity|]. split; [reflexivity|]. split.
    - pose proof (decode_key_rev z (q ++ p)) as H. rewrite <- app_assoc, Hk in H. apply H. reflexivity.
    - pose proof (Hrev z s n w p) as H. rewrite Hs in H. apply H. reflexivity.
  Qed.
  (** and put back *)
  Lemma paste_record s c n w p s1 z :
    decode_key c = Ok (n, w, p) -> step s n w p = DOk s1 [] ->
    decode_key (c ++ z) = Ok (n, w, p ++ z) /\ step s n w (p ++ z) = DOk s1 z.
  Proof.
    intros Hk Hs. split; [eapply decode_key_app, Hk|]. destruct (Hext z s n w p) as [_ H]. rewrite Hs in H. exact H.
  Qed.

  Lemma stream_runs k : forall s b s' r, stream_loop k step s b = DOk s' r ->
    r = [] /\ exists cs, b = concat cs /\ runs step s cs s'.
  Proof.
    induction k as [|k IH]; intros s b s' r; cbn [stream_loop]; (destruct b as [|b0 b];
      [injection 1 as <- <-; split; [reflexivity|]; exists []; split; [reflexivity|constructor]|]); [discriminate|].
    destruct (decode_key (b0 :: b)) as [[[n w] y]| | |] eqn:Ek; try discriminate.
    destruct (step s n w y) as [s1 z| | |] eqn:Es; try discriminate. intros H.
    destruct (IH _ _ _ _ H) as (-> & cs & -> & Hr).
    destruct (cut_record _ _ _ _ _ _ _ Ek Es) as (c & p & E1 & _ & E2 & E3).
    split; [reflexivity|]. exists (c :: cs). split; [exact E1|]. econstructor; eauto.
  Qed.
  Lemma runs_stream s cs s' : runs step s cs s' -> forall k, (length (concat cs) <= k)%nat ->
    stream_loop k step s (concat cs) = DOk s' [].
  Proof.
    induction 1 as [s|s c n w p s1 cs s2 Hk Hs Hr IH]; intros k Hl; [now destruct k|].
    cbn [concat] in *. destruct (paste_record _ _ _ _ _ _ (concat cs) Hk Hs) as [E1 E2].
    pose proof (decode_key_len _ _ _ _ Hk) as HL. rewrite app_length in Hl.
    destruct k as [|k]; [lia|].
    rewrite stream_loop_unfold by (destruct c; [cbn in HL; lia|discriminate]).
    rewrite E1, E2. apply IH. lia.
  Qed.

  Lemma group_runs tag k : forall s b s' r, group_loop k step tag s b = DOk s' r ->
    exists cs e, b = concat cs ++ e ++ r /\ runs step s cs s' /\ decode_key e = Ok (tag, WEnd, [])
      /\ Forall (key_is (fun _ w => w <> WEnd)) cs.
  Proof.
    induction k as [|k IH]; intros s b s' r; cbn [group_loop]; [discriminate|].
    destruct (decode_key b) as [[[n w] y]| | |] eqn:Ek; try discriminate.
    destruct (wt_eqb w WEnd) eqn:Ew.
    - destruct (n =? tag) eqn:En; [|discriminate]. injection 1 as <- <-.
      apply wt_eqb_eq in Ew. subst w. assert (n = tag) by lia. subst n.
      pose proof (decode_key_suffix _ _ _ _ Ek) as (e & ->). exists [], e. split; [reflexivity|].
      split; [constructor|]. split; [|constructor].
      pose proof (decode_key_rev y e) as H. rewrite Ek in H. apply H. reflexivity.
    - destruct (step s n w y) as [s1 z| | |] eqn:Es; try discriminate. intros H.
      destruct (IH _ _ _ _ H) as (cs & e & -> & Hr & He & Hf).
      destruct (cut_record _ _ _ _ _ _ _ Ek Es) as (c & p & E1 & _ & E2 & E3).
      exists (c :: cs), e. cbn [concat]. rewrite <- app_assoc. split; [exact E1|]. split; [econstructor; eauto|].
      split; [exact He|]. constructor; [|exact Hf]. exists n, w, p. split; [exact E2|].
      intros ->. cbn in Ew. discriminate.
  Qed.
  Lemma runs_group tag s cs s' : runs step s cs s' -> Forall (key_is (fun _ w => w <> WEnd)) cs ->
    forall e r k, decode_key e = Ok (tag, WEnd, []) -> (length (concat cs ++ e ++ r) < k)%nat ->
    group_loop k step tag s (concat cs ++ e ++ r) = DOk s' r.
  Proof.
    induction 1 as [s|s c n w p s1 cs s2 Hk Hs Hr IH]; intros Hf e r k He Hl; (destruct k as [|k]; [lia|]).
    - cbn [concat app group_loop]. rewrite (decode_key_app _ _ _ _ r He). cbn [wt_eqb app].
      rewrite N.eqb_refl. reflexivity.
    - inversion Hf as [|? ? (n0 & w0 & p0 & Hk0 & Hw) Hf']; subst. rewrite Hk in Hk0.
      injection Hk0 as <- <- <-. cbn [concat] in *. rewrite <- app_assoc in *.
      destruct (paste_record _ _ _ _ _ _ (concat cs ++ e ++ r) Hk Hs) as [E1 E2].
      pose proof (decode_key_len _ _ _ _ Hk) as HL. rewrite app_length in Hl.
      cbn [group_loop]. rewrite E1. destruct (wt_eqb w WEnd) eqn:Ew; [apply wt_eqb_eq in Ew; congruence|].
      rewrite E2. apply IH; auto. lia.
  Qed.

  Lemma until_runs limit k : forall s b s' r, loop_until k (keyed_step step) limit s b = DOk s' r ->
    length r = limit /\ exists cs, b = concat cs ++ r /\ runs step s cs s'.
  Proof.
    induction k as [|k IH]; intros s b s' r; cbn [loop_until].
    - destruct (length b <=? limit)%nat; [|discriminate].
      destruct (length b =? limit)%nat eqn:E; [|discriminate]. injection 1 as <- <-.
      split; [lia|]. exists []. split; [reflexivity|constructor].
    - destruct (length b <=? limit)%nat.
      + destruct (length b =? limit)%nat eqn:E; [|discriminate]. injection 1 as <- <-.
        split; [lia|]. exists []. split; [reflexivity|constructor].
      + unfold keyed_step at 1. destruct (decode_key b) as [[[n w] y]| | |] eqn:Ek; try discriminate.
        destruct (step s n w y) as [s1 z| | |] eqn:Es; try discriminate. intros H.
        destruct (IH _ _ _ _ H) as (HL & cs & -> & Hr).
        destruct (cut_record _ _ _ _ _ _ _ Ek Es) as (c & p & E1 & _ & E2 & E3).
        split; [exact HL|]. exists (c :: cs). cbn [concat]. rewrite <- app_assoc. split; [exact E1|].
        econstructor; eauto.
  Qed.
  Lemma runs_until s cs s' : runs step s cs s' -> forall k rest, (length (concat cs) <= k)%nat ->
    loop_until k (keyed_step step) (length rest) s (concat cs ++ rest) = DOk s' rest.
  Proof.
    induction 1 as [s|s c n w p s1 cs s2 Hk Hs Hr IH]; intros k rest Hl.
    - cbn [concat app]. destruct k; cbn [loop_until]; rewrite Nat.leb_refl, Nat.eqb_refl; reflexivity.
    - cbn [concat] in *. pose proof (decode_key_len _ _ _ _ Hk) as HL. rewrite app_length in Hl.
      destruct k as [|k]; [lia|]. cbn [loop_until].
      destruct (length ((c ++ concat cs) ++ rest) <=? length rest)%nat eqn:E; [rewrite !app_length in E; lia|].
      unfold keyed_step at 1. rewrite <- app_assoc.
      destruct (paste_record _ _ _ _ _ _ (concat cs ++ rest) Hk Hs) as [E1 E2]. rewrite E1, E2.
      apply IH. lia.
  Qed.

  (** a length-delimited message is merged from the records of its payload *)
  Lemma merge_loop_runs s b s' r : merge_loop (keyed_step step) s b = DOk s' r <->
    exists body cs, read_delimited b = Ok (body, r) /\ body = concat cs /\ runs step s cs s'.
  Proof.
    unfold merge_loop, read_delimited. destruct (decode_varint b) as [[len y]| | |]; cbn [rbind];
      try (split; [discriminate|intros (? & ? & ? & _); discriminate]).
    split.
    - destruct (N.of_nat (length y) <? len) eqn:E; [discriminate|]. intros H.
      apply until_runs in H. destruct H as (HL & cs & -> & Hr). exists (concat cs), cs.
      split; [|auto]. apply take_bytes_app. rewrite app_length in *. lia.
    - intros (body & cs & Ht & -> & Hr). apply take_bytes_inv in Ht. destruct Ht as [-> HL].
      rewrite app_length. destruct (N.of_nat (length (concat cs) + length r) <? len) eqn:E; [lia|].
      replace (length (concat cs) + length r - N.to_nat len)%nat with (length r) by lia.
      apply runs_until; [exact Hr|lia].
  Qed.
End Runs.

(** *** Merging at a given nesting budget *)

(** Message::merge of a (possibly nested) message with [ctx] levels of nesting
    left; the top level has 100. *)
Definition merge_at (ctx : nat) (t : tables) (m : dynmsg) (b : bytes) : dres dynmsg :=
  stream_loop (length b) (merge_msg_field t (merge_value 202 t) ctx) m b.

(** Message::merge_field (message.rs:35-56): one record's payload *)
Definition merge_field (ctx : nat) (t : tables) (m : dynmsg) (num : N) (w : wt) (b : bytes) : dres dynmsg :=
  merge_msg_field t (merge_value 202 t) ctx m num w b.

Section At.
  Variable t : tables.

  Lemma merge_field_ext ctx x m n w b :
    dext x b (merge_field ctx t m n w b) (merge_field ctx t m n w (b ++ x)).
  Proof. apply merge_step_ext. Qed.
  Lemma merge_field_rev ctx x m n w b :
    drev x (merge_field ctx t m n w (b ++ x)) (merge_field ctx t m n w b).
  Proof. apply merge_step_rev. Qed.

  Lemma merge_at_100 m b : wf t -> ok_msg t m = true -> bytes_ok b -> msg_merge t m b = merge_at 100 t m b.
  Proof.
    intros Hwf Hm Hb. apply ok_msg_iff in Hm. unfold msg_merge.
    rewrite (msg_merge_202 t (dm_desc m) (msg_depth m) m b (merge_fuel b) Hwf Hb); [reflexivity| |].
    - split; [reflexivity|]. split; [exact Hm|lia].
    - unfold merge_fuel. lia.
  Qed.

  Lemma merge_at_runs ctx m b m' r :
    merge_at ctx t m b = DOk m' r <->
    r = [] /\ exists cs, b = concat cs /\ runs (merge_field ctx t) m cs m'.
  Proof.
    unfold merge_at. split.
    - apply stream_runs; [intros; apply merge_field_ext|intros; apply merge_field_rev].
    - intros (-> & cs & -> & H). apply runs_stream; [intros; apply merge_field_ext|intros; apply merge_field_rev|exact H|lia].
  Qed.

  Lemma merge_at_concat ctx m a b m1 r :
    merge_at ctx t m a = DOk m1 r -> merge_at ctx t m (a ++ b) = merge_at ctx t m1 b.
  Proof.
    unfold merge_at. intros H. pose proof (stream_loop_rest _ _ _ _ _ _ H) as ->.
    destruct (stream_loop_split (merge_msg_field t (merge_value 202 t) ctx) (merge_msg_field t (merge_value 202 t) ctx) b
                ltac:(intros; apply merge_step_ext) (merge_step_shrinks t 202 ctx) _ (length (a ++ b)) _ _ _ H) as (k3 & Hk & E);
      [lia|].
    rewrite E. apply stream_loop_fuel; [apply merge_step_shrinks|exact Hk|lia].
  Qed.

  (** a single record *)
  Lemma merge_at_record ctx m c n w p m1 :
    decode_key c = Ok (n, w, p) -> merge_field ctx t m n w p = DOk m1 [] -> merge_at ctx t m c = DOk m1 [].
  Proof.
    intros Hk Hs. apply merge_at_runs. split; [reflexivity|]. exists [c]. cbn [concat]. rewrite app_nil_r.
    split; [reflexivity|]. econstructor; [exact Hk|exact Hs|constructor].
  Qed.

  Hypothesis Hwf : wf t.

  Lemma merge_field_ok ctx m n w b m' r :
    (ctx <= 100)%nat -> ok_msg t m = true -> tag_ok n -> bytes_ok b ->
    merge_field ctx t m n w b = DOk m' r -> ok_msg t m' = true /\ dm_desc m' = dm_desc m.
  Proof.
    intros Hc Hm Hn Hb H. apply ok_msg_iff in Hm.
    assert (G := msg_step_good t Hwf (merge_value 202 t) ctx (dm_desc m) (Nat.max (msg_depth m) (S ctx)) n w m b).
    unfold merge_field in H. rewrite H in G. destruct G as ((G1 & G2 & _) & _); auto.
    - intros f v Ho Hs Hi. apply (proj2 (merge_value_good t Hwf 202)); auto; [apply Nat.le_max_r|lia].
    - apply Nat.le_max_r.
    - split; [reflexivity|]. split; [exact Hm|apply Nat.le_max_l].
    - split; [now apply ok_msg_iff|exact G1].
  Qed.
  Lemma merge_at_ok ctx m b m' r :
    (ctx <= 100)%nat -> ok_msg t m = true -> bytes_ok b ->
    merge_at ctx t m b = DOk m' r -> ok_msg t m' = true /\ dm_desc m' = dm_desc m.
  Proof.
    intros Hc Hm Hb H. apply merge_at_runs in H. destruct H as (_ & cs & -> & H).
    revert Hm Hb. induction H as [m|m c n w p m1 cs m2 Hk Hs Hr IH]; intros Hm Hb; [auto|].
    cbn [concat] in Hb. apply bytes_ok_app in Hb. destruct Hb as [Hb1 Hb2].
    pose proof (suffix_ok _ _ (decode_key_suffix _ _ _ _ Hk) Hb1) as Hp.
    destruct (merge_field_ok _ _ _ _ _ _ _ Hc Hm (decode_key_tag_ok _ _ _ _ Hk) Hp Hs) as [H1 H2].
    destruct (IH H1 Hb2) as [H3 H4]. split; [exact H3|congruence].
  Qed.
End At.
