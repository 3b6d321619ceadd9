(** Custom options: the proofs of C58. *)
From Coq Require Import String.
From Verif Require Import Base BaseProofs Wire WireProofs LoopProofs Unknown UnknownProofs Value Descr Fields Codec DescrOk DescrProofs
  FieldsProofs MergeProofs EncBytes Float TextLex TextFormat TextParse TextLexProofs TextTokens TextSafe Proto Build BuildFrame
  ResolveSpec ResolveProofs LenProofs RoundProofs RoundMain History Prop_Decode OptResolve OptSpec.
Open Scope list_scope.
Open Scope N_scope.

(** what a UninterpretedOption of Rust's types can hold *)
Definition uoption_ok (o : uoption) : Prop :=
  match uo_pos o with Some n => n < two64 | None => True end /\
  match uo_neg o with Some z => i64_ok z = true | None => True end /\
  match uo_double o with Some b => b < two64 | None => True end /\
  match uo_string o with Some s => bytes_ok s | None => True end /\
  match uo_aggregate o with Some s => bytes_ok s | None => True end.

(** *** values *)
Lemma int_given_fun o z z' : int_given o z -> int_given o z' -> z = z'.
Proof. unfold int_given. destruct (uo_pos o); congruence. Qed.
Lemma float_given_fun o b b' : float_given o b -> float_given o b' -> b = b'.
Proof.
  unfold float_given. destruct (uo_double o); [congruence|]. intros [z [H ->]] [z' [H' ->]].
  f_equal. exact (int_given_fun o z z' H H').
Qed.
Lemma kind_msg_scalar k d : kind_msg k = Some d -> k = KMessage d \/ k = KGroup d.
Proof. destruct k; cbn; try discriminate; intros [= ->]; auto. Qed.

Lemma means_fun t o k v v' : means t o k v -> means t o k v' -> v = v'.
Proof.
  intros H H'. 
  inversion H as [? |? |? ? I1 G1|? ? I1 G1|? ? I1 G1|? ? I1 G1|? G1|? G1|? S1|? S1|? ? ? S1 E1|? ? ? ? K1 A1 P1]; subst;
  inversion H' as [? |? |? ? I2 G2|? ? I2 G2|? ? I2 G2|? ? I2 G2|? G2|? G2|? S2|? S2|? ? ? S2 E2|? ? ? ? K2 A2 P2]; subst;
  try reflexivity; try congruence;
  try (cbn in I1, I2; exfalso; intuition (subst; discriminate));
  try (cbn in I1; exfalso; intuition (subst; discriminate));
  try (cbn in I2; exfalso; intuition (subst; discriminate));
  try (pose proof (int_given_fun _ _ _ G1 G2); f_equal; lia);
  try (pose proof (float_given_fun _ _ _ G1 G2); congruence);
  try discriminate.
  all: try (apply kind_msg_scalar in K1; cbn in I2; exfalso; intuition (subst; discriminate)).
  all: try (apply kind_msg_scalar in K2; cbn in I1; exfalso; intuition (subst; discriminate)).
  all: match goal with A : uo_ident ?x = _, B : uo_ident ?x = _ |- _ => rewrite A in B; vm_compute in B; discriminate B end.
Qed.

Section Values.
  Variable t : tables.
  Hypothesis Hw : wf t.
  Hypothesis Hany : forall d n f, full_name t d = any_name -> n = 1 \/ n = 2 -> get_field t d n = Some f -> is_repeated f = false.
  Hypothesis Hx : forall d, NoDup (map fd_number (msg_exts t d)).
  Variable o : uoption.
  Hypothesis Ho : uoption_ok o.

  Lemma fmt_field_ty_ok f : fdl_shape t f -> fmt_field_ty t f = Ok tt.
  Proof.
    intros S. unfold fmt_field_ty. destruct (fd_is_map f) eqn:E; [|reflexivity].
    destruct (fs_map _ _ S E) as (e & kf & vf & k0 & -> & -> & -> & _). reflexivity.
  Qed.

  Lemma to_bool_spec b : option_to_bool o = Some b <-> means t o KBool (VBool b).
  Proof.
    unfold option_to_bool. split.
    - destruct (uo_ident o) as [s|] eqn:E; [|discriminate]. destruct (bytes_eqb s (s2b "true")) eqn:E1.
      + intros [= <-]. apply bytes_eqb_eq in E1. subst s. apply me_true. exact E.
      + destruct (bytes_eqb s (s2b "false")) eqn:E2; [|discriminate]. intros [= <-]. apply bytes_eqb_eq in E2. subst s. apply me_false. exact E.
    - intros H. inversion H as [E|E| | | | | | | | | | ]; subst; rewrite E; reflexivity.
  Qed.
  Lemma to_int_spec fits z : option_to_int fits o = Some z <-> int_given o z /\ fits z = true.
  Proof.
    unfold option_to_int, int_given. destruct (uo_pos o) as [n|].
    - destruct (fits (Z.of_N n)) eqn:E; split; [intros [= <-]; auto|intros [-> _]; reflexivity|discriminate|intros [-> H]; congruence].
    - destruct (uo_neg o) as [y|]; [|split; [discriminate|intros [? _]; discriminate]].
      destruct (fits y) eqn:E; split; [intros [= <-]; auto|intros [H _]; congruence|discriminate|intros [[= ->] H]; congruence].
  Qed.
  Lemma to_float_spec b : option_to_float o = Some b <-> float_given o b.
  Proof.
    unfold option_to_float, float_given, int_given. destruct (uo_double o) as [d|]; [split; [intros [= ->]|intros ->]; reflexivity|].
    destruct (uo_pos o) as [n|].
    - split; [intros [= <-]; eexists; split; reflexivity|intros [z [-> ->]]; reflexivity].
    - destruct (uo_neg o) as [z|]; cbn [option_map]; split; try discriminate.
      + intros [= <-]. eexists. split; reflexivity.
      + intros [y [[= ->] ->]]. reflexivity.
      + intros [y [? _]]. discriminate.
  Qed.
  Lemma float_given_bound b : float_given o b -> b < two64.
  Proof.
    destruct Ho as (_ & _ & H & _). unfold float_given. destruct (uo_double o) as [d|]; [intros ->; exact H|].
    intros [z [_ ->]]. unfold nearest.
    assert (forall n, round64 n 1 < two64) as B.
    { intros n. unfold round64. pose proof (round_bits_bound 53 (-1074) inf64 n 1) as Q. assert (inf64 < two64) by reflexivity. lia. }
    destruct (z <? 0)%Z; [apply f64_neg_bound|]; apply B.
  Qed.

  Lemma parse_text_good d s : (d < length (t_messages t))%nat -> bytes_ok s ->
    match parse_text t d s with
    | MOk m r => msg_ok t m /\ dm_desc m = d /\ r = []
    | MErr _ _ => True
    | MPanic | MFuel => False
    end.
  Proof.
    intros Hd Hs. pose proof (merge_text_good t Hw Hany Hx (new_msg d) s (new_msg_ok t d Hd) Hs) as G.
    unfold parse_text. destruct (merge_text t (new_msg d) s); auto.
  Qed.

  (** the message the option writes, for message type [d] *)
  Lemma to_message_spec d : (d < length (t_messages t))%nat ->
    (exists m s, option_to_message t d o = Ok (inl m) /\ uo_aggregate o = Some s /\ parse_text t d s = MOk m [] /\
       msg_ok t m /\ dm_desc m = d) \/
    (exists e, option_to_message t d o = Ok (inr e) /\ forall s m, uo_aggregate o = Some s -> parse_text t d s <> MOk m []).
  Proof.
    intros Hd. unfold option_to_message. destruct Ho as (_ & _ & _ & _ & Ha).
    destruct (uo_aggregate o) as [s|]; [|right; eexists; split; [reflexivity|]; intros; discriminate].
    pose proof (parse_text_good d s Hd Ha) as G. destruct (parse_text t d s) as [m r|e m| |] eqn:E; try contradiction.
    - destruct G as (G1 & G2 & ->). left. exists m, s. repeat split; try assumption; try reflexivity. apply G1. apply G1. apply G1.  apply G1.
    - right. eexists. split; [reflexivity|]. intros s' m' [= <-] Q. rewrite E in Q. discriminate.
  Qed.

  (** setting a value that is no list and no map *)
  Lemma set_plain_spec f v : fdl_ok t f -> fdl_shape t f -> ok_elem t v (fd_kind f) = true ->
    (exists x, set_plain t f o v = Ok (inl x) /\ means t o (fd_kind f) x /\ ok_elem t x (fd_kind f) = true) \/
    (exists e, set_plain t f o v = Ok (inr e) /\ forall x, ~ means t o (fd_kind f) x).
  Proof.
    intros Hf Hs Hv.
    assert (forall A (e : value + oerr -> Prop) (g : A -> value) (c : option A),
      (forall a, c = Some a -> means t o (fd_kind f) (g a) /\ ok_elem t (g a) (fd_kind f) = true) ->
      (forall x, means t o (fd_kind f) x -> exists a, c = Some a) ->
      (exists x, or_err t f g c = Ok (inl x) /\ means t o (fd_kind f) x /\ ok_elem t x (fd_kind f) = true) \/
      (exists e, or_err t f g c = Ok (inr e) /\ forall x, ~ means t o (fd_kind f) x)) as OR.
    { intros A _ g c H1 H2. destruct c as [a|]; cbn [or_err].
      - left. exists (g a). split; [reflexivity|]. apply H1. reflexivity.
      - right. exists (OptType true). unfold type_err. rewrite (fmt_field_ty_ok f Hs). cbn [rbind]. split; [reflexivity|].
        intros x Hm. destruct (H2 x Hm). discriminate. }
    pose proof (fo_kind _ _ Hf) as Hk.
    destruct v as [b|z|z|n|n|b|b|s|s|z|m|l|l]; cbn [set_plain] in *; try (cbn in Hv; discriminate).
    - (* bool *) destruct (fd_kind f) eqn:K; try (cbn in Hv; discriminate). apply OR; [exact (fun _ => True)| |].
      + intros a Ha. split; [apply to_bool_spec; exact Ha|reflexivity].
      + intros x Hm. inversion Hm as [E|E| | | | | | | | | |? ? ? ? KM]; subst; try (eexists; apply to_bool_spec; exact Hm);
          cbn in *; intuition discriminate.
    - (* i32 *) apply OR; [exact (fun _ => True)| |].
      + intros a Ha. apply to_int_spec in Ha. destruct Ha as [G F]. unfold i32_ok in F.
        split; [apply me_i32; [|exact G|lia]|]; destruct (fd_kind f); try (cbn in Hv; discriminate); cbn; auto; unfold i32_ok; lia.
      + intros x Hm. inversion Hm as [E K|E K|k y I1 G B K|? ? I1|? ? I1|? ? I1|? ? K|? ? K|? ? ? K|? ? K|? ? ? ? ? K|? ? ? ? KM]; subst;
          try (rewrite <- K in Hv; cbn in Hv; discriminate);
          try (exfalso; cbn in I1; repeat destruct I1 as [I1|I1]; try contradiction; rewrite <- I1 in Hv; cbn in Hv; discriminate).
        * exists y. apply to_int_spec. split; [exact G|]. unfold i32_ok. lia.
        * exfalso. apply kind_msg_scalar in KM. destruct KM as [KM|KM]; rewrite KM in Hv; cbn in Hv; discriminate.
    - (* i64 *) apply OR; [exact (fun _ => True)| |].
      + intros a Ha. apply to_int_spec in Ha. destruct Ha as [G F]. unfold i64_ok in F.
        split; [apply me_i64; [|exact G|lia]|]; destruct (fd_kind f); try (cbn in Hv; discriminate); cbn; auto; unfold i64_ok; lia.
      + intros x Hm. inversion Hm as [E K|E K|? ? I1|k y I1 G B K|? ? I1|? ? I1|? ? K|? ? K|? ? ? K|? ? K|? ? ? ? ? K|? ? ? ? KM]; subst;
          try (rewrite <- K in Hv; cbn in Hv; discriminate);
          try (exfalso; cbn in I1; repeat destruct I1 as [I1|I1]; try contradiction; rewrite <- I1 in Hv; cbn in Hv; discriminate).
        * exists y. apply to_int_spec. split; [exact G|]. unfold i64_ok. lia.
        * exfalso. apply kind_msg_scalar in KM. destruct KM as [KM|KM]; rewrite KM in Hv; cbn in Hv; discriminate.
    - (* u32 *) apply OR; [exact (fun _ => True)| |].
      + intros a Ha. apply to_int_spec in Ha. destruct Ha as [G F]. unfold fits_u32 in F.
        split; [apply me_u32; [|rewrite Z2N.id by lia; exact G|lia]|]; destruct (fd_kind f); try (cbn in Hv; discriminate); cbn; auto;
          unfold u32_ok, two32; lia.
      + intros x Hm. inversion Hm as [E K|E K|? ? I1|? ? I1|k y I1 G B K|? ? I1|? ? K|? ? K|? ? ? K|? ? K|? ? ? ? ? K|? ? ? ? KM]; subst;
          try (rewrite <- K in Hv; cbn in Hv; discriminate);
          try (exfalso; cbn in I1; repeat destruct I1 as [I1|I1]; try contradiction; rewrite <- I1 in Hv; cbn in Hv; discriminate).
        * exists (Z.of_N y). apply to_int_spec. split; [exact G|]. unfold fits_u32. lia.
        * exfalso. apply kind_msg_scalar in KM. destruct KM as [KM|KM]; rewrite KM in Hv; cbn in Hv; discriminate.
    - (* u64 *) apply OR; [exact (fun _ => True)| |].
      + intros a Ha. apply to_int_spec in Ha. destruct Ha as [G F]. unfold fits_u64 in F.
        split; [apply me_u64; [|rewrite Z2N.id by lia; exact G|lia]|]; destruct (fd_kind f); try (cbn in Hv; discriminate); cbn; auto;
          unfold u64_ok, two64; lia.
      + intros x Hm. inversion Hm as [E K|E K|? ? I1|? ? I1|? ? I1|k y I1 G B K|? ? K|? ? K|? ? ? K|? ? K|? ? ? ? ? K|? ? ? ? KM]; subst;
          try (rewrite <- K in Hv; cbn in Hv; discriminate);
          try (exfalso; cbn in I1; repeat destruct I1 as [I1|I1]; try contradiction; rewrite <- I1 in Hv; cbn in Hv; discriminate).
        * exists (Z.of_N y). apply to_int_spec. split; [exact G|]. unfold fits_u64. lia.
        * exfalso. apply kind_msg_scalar in KM. destruct KM as [KM|KM]; rewrite KM in Hv; cbn in Hv; discriminate.
    - (* f32 *) destruct (fd_kind f) eqn:K; try (cbn in Hv; discriminate). apply OR; [exact (fun _ => True)| |].
      + intros a Ha. apply to_float_spec in Ha. split; [apply me_f32; exact Ha|]. cbn. unfold u32_ok.
        apply N.ltb_lt. apply f64_to_f32_bound.
      + intros x Hm. inversion Hm as [E|E|? ? I1|? ? I1|? ? I1|? ? I1|? G| | | | |? ? ? ? KM]; subst;
          try (exfalso; cbn in I1; intuition discriminate); [|discriminate].
        eexists. apply to_float_spec. exact G.
    - (* f64 *) destruct (fd_kind f) eqn:K; try (cbn in Hv; discriminate). apply OR; [exact (fun _ => True)| |].
      + intros a Ha. apply to_float_spec in Ha. split; [apply me_f64; exact Ha|]. cbn. unfold u64_ok.
        apply N.ltb_lt. apply float_given_bound. exact Ha.
      + intros x Hm. inversion Hm as [E|E|? ? I1|? ? I1|? ? I1|? ? I1| |? G| | | |? ? ? ? KM]; subst;
          try (exfalso; cbn in I1; intuition discriminate); [|discriminate].
        eexists. apply to_float_spec. exact G.
    - (* string *) destruct (fd_kind f) eqn:K; try (cbn in Hv; discriminate). unfold option_to_string. destruct Ho as (_ & _ & _ & Hb & _). apply OR; [exact (fun _ => True)| |].
      + intros a Ha. destruct (uo_string o) as [y|] eqn:E; [|discriminate]. destruct (utf8_valid y) eqn:U; [|discriminate]. injection Ha as <-.
        split; [apply me_string; assumption|]. cbn. rewrite U, andb_true_r. apply bytes_okb_ok. exact Hb.
      + intros x Hm. inversion Hm as [E|E|? ? I1|? ? I1|? ? I1|? ? I1| | |? E U| | |? ? ? ? KM]; subst;
          try (exfalso; cbn in I1; intuition discriminate); [|discriminate].
        rewrite E, U. eauto.
    - (* bytes *) destruct (fd_kind f) eqn:K; try (cbn in Hv; discriminate). unfold option_to_bytes. destruct Ho as (_ & _ & _ & Hb & _). apply OR; [exact (fun _ => True)| |].
      + intros a Ha. split; [apply me_bytes; exact Ha|]. cbn. rewrite Ha in Hb. apply bytes_okb_ok. exact Hb.
      + intros x Hm. inversion Hm as [E|E|? ? I1|? ? I1|? ? I1|? ? I1| | | |? E| |? ? ? ? KM]; subst;
          try (exfalso; cbn in I1; intuition discriminate); [|discriminate]. eauto.
    - (* enum *) destruct (fd_kind f) as [| | | | | | | | | | | | | | | |e|] eqn:K; try (cbn in Hv; discriminate). unfold option_to_enum. apply OR; [exact (fun _ => True)| |].
      + intros a Ha. destruct (uo_ident o) as [y|] eqn:E; [|discriminate].
        split; [eapply me_enum; eassumption|]. cbn. eapply enum_number_ok; eassumption.
      + intros x Hm. inversion Hm as [E|E|? ? I1|? ? I1|? ? I1|? ? I1| | | | |? ? ? E1 E2|? ? ? ? KM]; subst;
          try (exfalso; cbn in I1; intuition discriminate); [|discriminate]. rewrite E1. eauto.
    - (* message *) rewrite ok_elem_msg in Hv. destruct (kind_msg (fd_kind f)) as [d|] eqn:K; [|discriminate].
      assert ((d < length (t_messages t))%nat) as Hd.
      { unfold kind_okb in Hk. apply kind_msg_scalar in K. destruct K as [K|K]; rewrite K in Hk; apply Nat.ltb_lt; exact Hk. }
      destruct (to_message_spec d Hd) as [(m' & s & E & Ea & Ep & Om & Dm)|(e & E & N)]; rewrite E; cbn [rbind].
      + left. exists (VMessage m'). split; [reflexivity|]. split; [eapply me_message; eassumption|].
        rewrite ok_elem_msg, K, Dm, Nat.eqb_refl. cbn [andb]. apply ok_msg_iff. exact Om.
      + right. unfold message_err. rewrite (fmt_field_ty_ok f Hs). cbn [rbind]. eexists. split; [reflexivity|].
        intros x Hm. apply kind_msg_scalar in K.
        inversion Hm as [E1 K1|E1 K1|? ? I1|? ? I1|? ? I1|? ? I1|? ? K1|? ? K1|? ? ? K1|? ? K1|? ? ? ? ? K1|? ? ? ? KM A1 P1]; subst;
          try (exfalso; destruct K as [K|K]; rewrite K in *; try discriminate; cbn in I1; intuition discriminate).
        assert (d0 = d) by (destruct K as [K|K]; rewrite K in KM; cbn in KM; congruence). subst d0. exact (N _ _ A1 P1).
  Qed.

  (** the value of an entry's field *)
  Lemma entry_value_ok m n kf : msg_ok t m -> get_field t (dm_desc m) n = Some kf -> is_repeated kf = false ->
    ok_elem t (get_field_value t m kf) (fd_kind kf) = true.
  Proof.
    intros Hm Hf Hr. pose proof (get_field_number _ _ _ _ (proj1 Hw) Hf) as En. subst n.
    assert (find_desc t (dm_desc m) (fd_number kf) = Some kf) as Hd by (unfold find_desc; rewrite Hf; reflexivity).
    destruct m as [d fs]. pose proof (stored_ok t Hw d fs kf Hm Hd) as S. cbn [dm_desc] in *.
    pose proof (is_list_repeated _ Hr) as L. pose proof (get_field_map t Hw d _ _ Hf Hr) as M.
    unfold get_field_value. cbn [dm_fields]. destruct (fs_get t kf fs); cbn [ok_field] in S; try (rewrite L, M in S; exact S).
    - rewrite L in S. discriminate.
    - rewrite M in S. destruct (kind_msg (fd_kind kf)); discriminate.
  Qed.

  Lemma sets_fun f v x y i j : sets t o f v x i -> sets t o f v y j -> x = y /\ i = j.
  Proof.
    intros H H'. inversion H as [? ? L1 M1 E1|? ? L1 E1|? e1 s1 m1 ? ? ? M1 K1 A1 P1 F1 V1 Q1]; subst;
    inversion H' as [? ? L2 M2 E2|? ? L2 E2|? e2 s2 m2 ? ? ? M2 K2 A2 P2 F2 V2 Q2]; subst; try congruence.
    - split; [eapply means_fun; eassumption|reflexivity].
    - split; [|reflexivity]. do 2 f_equal. f_equal. eapply means_fun; eassumption.
    - split; [|reflexivity]. rewrite K1 in K2. injection K2 as <-. rewrite A1 in A2. injection A2 as <-. rewrite P1 in P2. injection P2 as <-.
      rewrite F1 in F2. injection F2 as <-. rewrite V1 in V2. injection V2 as <-. rewrite Q1 in Q2. injection Q2 as <-. reflexivity.
  Qed.

  Lemma set_value_spec f v : fdl_ok t f -> fdl_shape t f -> ok_field t f v = true ->
    (exists x i, set_value t f o v = Ok (inl (x, i)) /\ sets t o f v x i /\ ok_field t f x = true) \/
    (exists e, set_value t f o v = Ok (inr e) /\ forall x i, ~ sets t o f v x i).
  Proof.
    intros Hf Hs Hv.
    assert (plain v = true ->
      (exists x i, (let! r := set_plain t f o v in Ok (match r with inl x => inl (x, []) | inr e => inr e end)) = Ok (inl (x, i)) /\
         sets t o f v x i /\ ok_field t f x = true) \/
      (exists e, (let! r := set_plain t f o v in Ok (match r with inl x => inl (x, @nil Z) | inr e => inr e end)) = Ok (inr e) /\
         forall x i, ~ sets t o f v x i)) as PL.
    { intros Hp. rewrite (ok_field_plain _ _ _ Hp) in Hv. apply andb_true_iff in Hv. destruct Hv as [Hv1 Hv2].
      apply andb_true_iff in Hv1. destruct Hv1 as [L M]. apply negb_true_iff in L, M.
      destruct (set_plain_spec f v Hf Hs Hv2) as [(x & -> & Hm & Hox)|(e & -> & N)]; cbn [rbind].
      - left. exists x, []. split; [reflexivity|]. split; [constructor; assumption|].
        rewrite (ok_field_plain _ _ _ (ok_elem_plain _ _ _ Hox)), L, M, Hox. reflexivity.
      - right. exists e. split; [reflexivity|]. intros x i H. inversion H; subst; try congruence. eapply N; eassumption. }
    destruct v as [b|z|z|n|n|b|b|s|s|z|m|vs|kvs]; try (cbn [set_value]; exact (PL eq_refl)); clear PL.
    - (* list *) cbn [ok_field] in Hv. apply andb_true_iff in Hv. destruct Hv as [L Hv].
      pose proof (kind_default_ok t (fd_kind f) (fo_kind _ _ Hf)) as D. cbn [set_value].
      destruct (set_plain_spec f _ Hf Hs D) as [(x & -> & Hm & Hox)|(e & -> & N)]; cbn [rbind].
      + left. do 2 eexists. split; [reflexivity|]. split; [constructor; assumption|].
        cbn [ok_field]. rewrite L, forallb_app, Hv. cbn. rewrite Hox. reflexivity.
      + right. exists e. split; [reflexivity|]. intros x i H.
        inversion H as [? ? L1 M1|? ? L1 E1|]; subst; [congruence|]. eapply N; eassumption.
    - (* map *) cbn [ok_field] in Hv. destruct (kind_msg (fd_kind f)) as [d|] eqn:K; [|discriminate].
      destruct (fd_is_map f) eqn:M; [|discriminate]. cbn [set_value set_plain]. rewrite K.
      destruct (fs_map _ _ Hs M) as (d' & kf & vf & k0 & K' & F & V & D0 & Rk & Rv). rewrite K in K'. injection K' as <-.
      rewrite F, V in Hv. apply andb_true_iff in Hv. destruct Hv as [Hv1 Hv2].
      assert ((d < length (t_messages t))%nat) as Hd.
      { pose proof (fo_kind _ _ Hf) as Hk. unfold kind_okb in Hk. apply kind_msg_scalar in K. destruct K as [K|K]; rewrite K in Hk; apply Nat.ltb_lt; exact Hk. }
      unfold option_to_map_entry.
      destruct (to_message_spec d Hd) as [(m' & s & E & Ea & Ep & Om & Dm)|(e & E & N)]; rewrite E; cbn [rbind].
      + unfold get_field_by_number. rewrite Dm. fold (entry_key t d). fold (entry_value t d). rewrite F, V. cbn [option_map].
        assert (ok_elem t (get_field_value t m' kf) (fd_kind kf) = true) as Ok1 by (eapply entry_value_ok; [exact Om|rewrite Dm; exact F|exact Rk]).
        assert (ok_elem t (get_field_value t m' vf) (fd_kind vf) = true) as Ok2 by (eapply entry_value_ok; [exact Om|rewrite Dm; exact V|exact Rv]).
        assert (is_msg_kind (fd_kind kf) = false) as Nk by (destruct (fd_kind kf); try reflexivity; discriminate).
        destruct (value_mk_ok (fd_kind kf) k0 _ (mk_default_ok _ _ D0) (ok_elem_scalar _ _ _ Nk Ok1)) as (key & Qk & Qo). rewrite Qk. cbn [rbind].
        left. do 2 eexists. split; [reflexivity|]. split; [eapply st_map; eassumption|].
        cbn [ok_field]. rewrite K, M, F, V, (map_insert_nodup _ _ _ Hv1). cbn [andb]. apply forallb_forall. intros x Hin.
        apply map_insert_In in Hin. destruct Hin as [-> |Hin]; [cbn [fst snd]; rewrite Qo, Ok2; reflexivity|].
        rewrite forallb_forall in Hv2. exact (Hv2 _ Hin).
      + right. unfold message_err. rewrite (fmt_field_ty_ok f Hs). cbn [rbind]. eexists. split; [reflexivity|].
        intros x i H. inversion H as [? ? L1 M1|? ? L1 E1|? e1 s1 m1 ? ? ? M1 K1 A1 P1]; subst; [congruence|].
        rewrite K in K1. injection K1 as <-. exact (N _ _ A1 P1).
  Qed.
End Values.

(** *** names *)
Lemma resolve_none deps names ref r n d :
  (resolve_name deps names [] ref r = RFound n d <->
   (ref = n /\ (forall x, ref <> dot :: x) \/ ref = dot :: n) /\
   fitting (fun x => assoc_s x names) (fun x => In x deps) (fun k => is_match r k = true) n d).
Proof.
  assert ((forall x, ref <> dot :: x) -> resolve_name deps names [] ref r = lookup_name deps names ref r) as RL.
  { intros H. destruct ref as [|c ref]; [reflexivity|]. cbn [resolve_name]. destruct (N.eqb_spec c dot) as [-> |]; [exfalso; exact (H _ eq_refl)|reflexivity]. }
  assert ((forall x, ref <> dot :: x) \/ exists x, ref = dot :: x) as [H|[x ->]].
  { destruct ref as [|c ref]; [left; discriminate|]. destruct (N.eqb_spec c dot) as [-> |E]; [right; eauto|left; intros x [= -> _]; apply E; reflexivity]. }
  - rewrite (RL H), lookup_found. split.
    + intros [-> F]. split; [left; split; [reflexivity|exact H]|exact F].
    + intros [[[-> _]| ->] F]; [auto|exfalso; exact (H _ eq_refl)].
  - cbn [resolve_name]. rewrite N.eqb_refl, lookup_found. split.
    + intros [-> F]. split; [right; reflexivity|exact F].
    + intros [[[_ E]|[= ->]] F]; [exfalso; exact (E _ eq_refl)|auto].
Qed.
Lemma is_ext_kind k : is_match FExtension k = true <-> extension_kind k.
Proof. unfold extension_kind. destruct k; cbn; split; try discriminate; try (intros [? ?]; discriminate); eauto. Qed.
Lemma fitting_ext names vis f1 f2 n d : (forall k, f1 k <-> f2 k) -> (fitting names vis f1 n d <-> fitting names vis f2 n d).
Proof. intros H. unfold fitting. rewrite (H (d_kind d)). reflexivity. Qed.
Lemma resolves_fits names vis f1 f2 scope ref n d : (forall k, f1 k <-> f2 k) ->
  resolves names vis f1 scope ref n d -> resolves names vis f2 scope ref n d.
Proof.
  intros H R. inversion R as [n' d' F|ref' sc d' Nd En F Mx|first rest' sc c d' Nf Nd En Hc Kc Mx F]; subst.
  - apply rs_absolute. apply (fitting_ext _ _ f1 f2 _ _ H). exact F.
  - apply rs_simple; auto; [apply (fitting_ext _ _ f1 f2 _ _ H); exact F|]. intros sc' E I d' Q. apply (fitting_ext _ _ f1 f2 _ _ H) in Q. exact (Mx sc' E I d' Q).
  - eapply rs_compound; try eassumption. apply (fitting_ext _ _ f1 f2 _ _ H). exact F.
Qed.

Lemma refers_found p file fi scope ref n d : nth_error (p_files p) file = Some fi ->
  (refers p file scope ref n d <-> resolve_name (fi_trans fi) (p_names p) scope ref FExtension = RFound n d).
Proof.
  intros Hf. unfold refers. destruct scope as [|c scope].
  - rewrite resolve_none. split.
    + intros [fi' [E [A F]]]. rewrite Hf in E. injection E as <-. split; [exact A|]. apply (fitting_ext _ _ _ _ n d is_ext_kind). exact F.
    + intros [A F]. exists fi. split; [exact Hf|]. split; [exact A|]. apply (fitting_ext _ _ _ _ n d is_ext_kind) in F. exact F.
  - rewrite resolve_exact by discriminate. split.
    + intros [fi' [E R]]. rewrite Hf in E. injection E as <-. eapply resolves_fits; [|exact R]. intros k. symmetry. apply is_ext_kind.
    + intros R. exists fi. split; [exact Hf|]. eapply resolves_fits; [|exact R]. apply is_ext_kind.
Qed.

Section Walk.
  Variable p : pool.
  Variable t : tables.
  Variable own : bool.
  Variable scope : str.
  Variable file : nat.
  Hypothesis Hw : wf t.
  Hypothesis Hany : forall d n f, full_name t d = any_name -> n = 1 \/ n = 2 -> get_field t d n = Some f -> is_repeated f = false.
  Hypothesis Hx : forall d, NoDup (map fd_number (msg_exts t d)).
  Variable fi : file_inner.
  Hypothesis Hfile : nth_error (p_files p) file = Some fi.
  Hypothesis Hdefs : forall n d, assoc_s n (p_names p) = Some d ->
    (d_file d < length (p_files p))%nat /\ (forall i, d_kind d = DExtension i -> (i < length (p_exts p))%nat).
  Hypothesis Hown : own = true -> forall i x, nth_error (p_exts p) i = Some x -> In (ext_view t x) (msg_exts t (x_extendee x)).

  Lemma at_some {A} (l : list A) i : (i < length l)%nat -> exists a, at_ l i = Ok a /\ nth_error l i = Some a.
  Proof. intros H. unfold at_. destruct (nth_error l i) as [a|] eqn:E; [eauto|]. apply nth_error_None in E. lia. Qed.

  Lemma lookup_names deps name r :
    match lookup_name deps (p_names p) name r with
    | RFound _ d | RInvalidType _ d => exists n, assoc_s n (p_names p) = Some d
    | RNotImported _ df => exists n d, assoc_s n (p_names p) = Some d /\ d_file d = df
    | _ => True
    end.
  Proof. unfold lookup_name. destruct (assoc_s name (p_names p)) as [d|] eqn:E; [|exact Logic.I]. destruct (negb _); [eauto|]. destruct (negb _); eauto. Qed.
  Lemma loop_names deps r rel : forall parents e,
    match e with
    | RFound _ d | RInvalidType _ d => exists n, assoc_s n (p_names p) = Some d
    | RNotImported _ df => exists n d, assoc_s n (p_names p) = Some d /\ d_file d = df
    | _ => True
    end ->
    match resolve_loop deps (p_names p) r rel parents e with
    | RFound _ d | RInvalidType _ d => exists n, assoc_s n (p_names p) = Some d
    | RNotImported _ df => exists n d, assoc_s n (p_names p) = Some d /\ d_file d = df
    | _ => True
    end.
  Proof.
    induction parents as [|parent rest IH]; intros e He; cbn [resolve_loop]; [exact He|].
    destruct (_ =? _)%nat.
    - pose proof (lookup_names deps (join_scope parent (first_part rel)) r) as L.
      destruct (lookup_name deps (p_names p) (join_scope parent (first_part rel)) r) eqn:EL; try exact L; apply IH; destruct e; auto.
    - destruct (assoc_s _ (p_names p)) as [d|]; [|apply IH; exact He]. destruct (is_parent (d_kind d)); [|apply IH; exact He].
      pose proof (lookup_names deps (join_scope parent rel) r) as L. destruct (lookup_name deps (p_names p) (join_scope parent rel) r); auto.
  Qed.
  Lemma resolve_names deps ref r :
    match resolve_name deps (p_names p) scope ref r with
    | RFound _ d | RInvalidType _ d => exists n, assoc_s n (p_names p) = Some d
    | RNotImported _ df => exists n d, assoc_s n (p_names p) = Some d /\ d_file d = df
    | _ => True
    end.
  Proof.
    unfold resolve_name. destruct ref as [|c ref]; destruct scope as [|s0 sc]; try apply lookup_names; try (apply loop_names; exact Logic.I);
    destruct (c =? dot); try apply lookup_names; apply loop_names; exact Logic.I.
  Qed.

  Lemma ext_unique d f : In f (msg_exts t d) -> find_desc t d (fd_number f) = Some f.
  Proof.
    intros Hin.
    assert (get_ext t d (fd_number f) = Some f) as G.
    { unfold get_ext. pose proof (Hx d) as Nd. revert Nd Hin. generalize (msg_exts t d) as l. induction l as [|g l IH]; [intros _ []|].
      cbn [map find]. intros Nd. inversion Nd as [|? ? N1 N2]; subst. intros [-> |Hin]; [rewrite N.eqb_refl; reflexivity|].
      destruct (N.eqb_spec (fd_number g) (fd_number f)) as [E|]; [|apply IH; assumption].
      exfalso. apply N1. rewrite E. apply in_map. exact Hin. }
    unfold find_desc. rewrite (field_ext_disjoint t d _ f Hw G). exact G.
  Qed.

  Lemma find_part_spec d part :
    (exists f, find_part p t own scope file d part = Ok (inl f) /\ find_desc t d (fd_number f) = Some f /\
       forall f', part_names p t own scope file d part f' <-> f' = f) \/
    (exists e, find_part p t own scope file d part = Ok (inr e) /\ forall f, ~ part_names p t own scope file d part f).
  Proof.
    destruct part as [name isx]. unfold find_part. cbn [fst snd]. destruct isx.
    - remember (find_extension p t own scope file name d) as r0 eqn:Er; unfold find_extension in Er; unfold at_ at 1 in Er; rewrite Hfile in Er; cbn [rbind] in Er.
      pose proof (resolve_names (fi_trans fi) name FExtension) as RN.
      pose proof (refers_found p file fi scope name) as RF.
      assert (forall n d', resolve_name (fi_trans fi) (p_names p) scope name FExtension <> RFound n d' -> True) as _ by auto.
      destruct (resolve_name (fi_trans fi) (p_names p) scope name FExtension) as [n df|n df|n df|n sh|] eqn:ER.
      + destruct RN as [n0 Hn]. destruct (Hdefs _ _ Hn) as [_ Hi].
        assert (refers p file scope name n df) as Rf by (apply RF; [exact Hfile|reflexivity]).
        assert (exists i, d_kind df = DExtension i) as [i Ki].
        { destruct Rf as [fi' [E R]]. destruct scope; [destruct R as [_ F]; exact (proj2 (proj2 F))|].
          inversion R; subst; match goal with F : fitting _ _ _ _ _ |- _ => exact (proj2 (proj2 F)) end. }
        rewrite Ki in Er. destruct (at_some (p_exts p) i (Hi i Ki)) as [x [Ax Ex]]. rewrite Ax in Er. cbn [rbind] in Er.
        assert (forall f', part_names p t own scope file d (name, true) f' <-> own = true /\ x_extendee x = d /\ f' = ext_view t x) as PN.
        { intros f'. split.
          - intros H. inversion H as [|? n' df' i' x' O R' K' E' D]; subst.
            apply (proj1 (RF n' df' Hfile)) in R'. injection R' as <- <-.
            rewrite Ki in K'. injection K' as <-. rewrite Ex in E'. injection E' as <-. auto.
          - intros (O & D & ->). eapply pn_ext; eassumption. }
        destruct (own && (x_extendee x =? d)%nat) eqn:C; subst r0.
        * apply andb_true_iff in C. destruct C as [O D]. apply Nat.eqb_eq in D. left. exists (ext_view t x). split; [reflexivity|].
          split; [apply ext_unique; rewrite <- D; eapply Hown; eassumption|].
          intros f'. rewrite PN. intuition.
        * right. eexists. split; [reflexivity|]. intros f' H. apply PN in H. destruct H as (O & D & _).
          rewrite O, D, Nat.eqb_refl in C. discriminate.
      + destruct RN as [n0 Hn]. destruct (at_some (p_files p) (d_file df) (proj1 (Hdefs _ _ Hn))) as [a [Aa _]]. rewrite Aa in Er. cbn [rbind] in Er. subst r0. right. eexists. split; [reflexivity|].
        intros f' H. inversion H as [|? n' df' ? ? ? R']; subst. apply (proj1 (RF n' df' Hfile)) in R'. discriminate.
      + destruct RN as [n0 [d0 [Hn <-]]]. destruct (at_some (p_files p) (d_file d0) (proj1 (Hdefs _ _ Hn))) as [a [Aa _]]. rewrite Aa in Er. cbn [rbind] in Er. subst r0. right. eexists. split; [reflexivity|].
        intros f' H. inversion H as [|? n' df' ? ? ? R']; subst. apply (proj1 (RF n' df' Hfile)) in R'. discriminate.
      + subst r0. right. eexists. split; [reflexivity|]. intros f' H. inversion H as [|? n' df' ? ? ? R']; subst. apply (proj1 (RF n' df' Hfile)) in R'. discriminate.
      + subst r0. right. eexists. split; [reflexivity|]. intros f' H. inversion H as [|? n' df' ? ? ? R']; subst. apply (proj1 (RF n' df' Hfile)) in R'. discriminate.
    - assert (forall f', part_names p t own scope file d (name, false) f' <-> get_field_by_name t d name = Some f') as PN.
      { intros f'. split.
        - intros H. inversion H as [? Hin|]; subst. apply (msg_fields_get t d f' (proj1 Hw)) in Hin. eapply get_field_number_name; [exact (proj1 Hw)|exact Hin].
        - intros H. destruct (get_field_by_name_number t d name f' (proj1 Hw) H) as [<- G]. constructor. apply (msg_fields_get t d f' (proj1 Hw)). exact G. }
      destruct (get_field_by_name t d name) as [f|] eqn:E.
      + left. exists f. split; [reflexivity|]. destruct (get_field_by_name_number t d name f (proj1 Hw) E) as [_ G].
        split; [unfold find_desc; rewrite G; reflexivity|]. intros f'. rewrite PN. split; congruence.
      + right. eexists. split; [reflexivity|]. intros f H. apply PN in H. discriminate.
  Qed.

  Lemma put_stored f v m : bt_sorted (dm_fields m) ->
    with_fields m (fs_put f v (fs_get_mut t f (dm_fields m))) = stored m f v.
  Proof.
    intros Hs. unfold with_fields, stored. f_equal. destruct (assigned_put t f v _ Hs) as [S1 G1]. destruct (assigned_set f v _ Hs) as [S2 G2].
    apply bt_ext; [exact S1|exact S2|]. intros k. rewrite G1, G2. reflexivity.
  Qed.
  Lemma stored_msg_ok m f v : msg_ok t m -> find_desc t (dm_desc m) (fd_number f) = Some f -> ok_field t f v = true -> msg_ok t (stored m f v).
  Proof.
    intros Hm Hf Hv. destruct m as [d fs]. unfold stored. cbn [dm_desc dm_fields] in *.
    eapply assigned_ok; [exact (proj1 Hw)|exact Hm|exact Hf|exact Hv|]. apply assigned_set. exact (mo_sorted _ _ Hm).
  Qed.
  Lemma get_mut_msg_ok m f : msg_ok t m -> find_desc t (dm_desc m) (fd_number f) = Some f ->
    msg_ok t (with_fields m (fs_get_mut t f (dm_fields m))).
  Proof.
    intros Hm Hf. destruct m as [d fs]. unfold with_fields. cbn [dm_desc dm_fields] in *.
    eapply (assigned_ok t d fs f (fs_get t f fs)); [exact (proj1 Hw)|exact Hm|exact Hf|exact (stored_ok t Hw d fs f Hm Hf)|].
    split; [apply get_mut_sorted; exact (mo_sorted _ _ Hm)|]. intros k. apply get_mut_get.
  Qed.

  Lemma set_option_spec o : uoption_ok o -> forall parts m, parts <> [] -> msg_ok t m ->
    exists m' e path, set_option p t own scope file o parts m = Ok (m', e, path) /\ msg_ok t m' /\ dm_desc m' = dm_desc m /\
      (forall m1 path1, interprets p t own scope file o parts m m1 path1 <-> e = None /\ m1 = m' /\ path1 = path).
  Proof.
    intros Ho. induction parts as [|part rest IH]; intros m Hne Hm; [contradiction|]. cbn [set_option].
    destruct (find_part_spec (dm_desc m) part) as [(f & -> & Hf & PN)|(e & -> & PN)]; cbn [rbind].
    2:{ exists m, (Some e), []. split; [reflexivity|]. split; [exact Hm|]. split; [reflexivity|]. intros m1 path1. split; [|intros [? _]; discriminate].
        intros H. exfalso. inversion H as [? ? f v i P|? ? ? f ? ? ? P]; subst; exact (PN _ P). }
    pose proof (find_desc_ok _ _ _ _ (proj1 Hw) Hf) as Fok. pose proof (find_desc_shape _ _ _ _ Hw Hf) as Fsh.
    assert (ok_field t f (fs_get t f (dm_fields m)) = true) as Sok by (destruct m as [d fs]; exact (stored_ok t Hw d fs f Hm Hf)).
    pose proof (mo_sorted _ _ Hm) as Srt. rewrite get_mut_get_self.
    destruct rest as [|part2 rest].
    - clear IH. destruct (negb (card_eqb (fd_card f) Repeated) && has_field t m f) eqn:Dup.
      + do 3 eexists. split; [reflexivity|]. split; [exact Hm|]. split; [reflexivity|]. intros m1 path1. split; [|intros [? _]; discriminate].
        intros H. exfalso. apply andb_true_iff in Dup. destruct Dup as [D1 D2]. inversion H as [? ? g v i P C|? ? ? g ? ? ? P G R]; subst; [|inversion R].
        apply PN in P. subst g. destruct C as [C|C]; [rewrite C in D1; discriminate|congruence].
      + assert (fd_card f = Repeated \/ has_field t m f = false) as ND.
        { destruct (fd_card f); auto; cbn in Dup; auto. }
        destruct (set_value_spec t Hw Hany Hx o Ho f _ Fok Fsh Sok) as [(x & i & -> & St & Hox)|(e & -> & N)]; cbn [rbind].
        * rewrite (put_stored f x m Srt). do 3 eexists. split; [reflexivity|]. split; [apply stored_msg_ok; assumption|]. split; [reflexivity|].
          intros m1 path1. split.
          -- intros H. inversion H as [? ? g v j P C St2|? ? ? g ? ? ? P G R]; subst; [|inversion R]. apply PN in P. subst g.
             destruct (sets_fun t o f _ _ _ _ _ St St2) as [-> ->]. auto.
          -- intros (_ & -> & ->). eapply ip_last; [apply PN; reflexivity|exact ND|exact St].
        * do 3 eexists. split; [reflexivity|]. split; [apply get_mut_msg_ok; assumption|]. split; [reflexivity|]. intros m1 path1. split; [|intros [? _]; discriminate].
          intros H. exfalso. inversion H as [? ? g v j P C St2|? ? ? g ? ? ? P G R]; subst; [|inversion R]. apply PN in P. subst g. exact (N _ _ St2).
    - destruct (fs_get t f (dm_fields m)) as [b|z|z|n|n|b|b|s|s|z|sub|vs|kvs] eqn:Ev.
      11:{ cbn [ok_field] in Sok. apply andb_true_iff in Sok. destruct Sok as [Sk1 Sk2]. rewrite ok_elem_msg in Sk2.
        destruct (kind_msg (fd_kind f)) as [d|] eqn:K; [|discriminate]. apply andb_true_iff in Sk2. destruct Sk2 as [Sd Sm].
        destruct (IH sub ltac:(discriminate) (proj1 (ok_msg_iff _ _) Sm)) as (sub' & e & path & -> & Hs' & Ds & IP). cbn [rbind].
        rewrite (put_stored f _ m Srt). do 3 eexists. split; [reflexivity|]. split; [|split; [reflexivity|]].
        - apply stored_msg_ok; [exact Hm|exact Hf|]. cbn [ok_field]. rewrite Sk1, ok_elem_msg, K, Ds, Sd. cbn [andb]. apply ok_msg_iff. exact Hs'.
        - intros m1 path1. split.
          + intros H. inversion H as [|? ? ? g ? ? ? P G R]; subst. apply PN in P. subst g. unfold get_field_value in G. rewrite Ev in G. injection G as <-.
            apply IP in R. destruct R as (-> & -> & ->). auto.
          + intros (-> & -> & ->). eapply ip_in; [apply PN; reflexivity|exact Ev|]. apply IP. auto. }
      all: rewrite (fmt_field_ty_ok t f Fsh); cbn [rbind]; do 3 eexists; (split; [reflexivity|]); (split; [apply get_mut_msg_ok; assumption|]);
        (split; [reflexivity|]); intros m1 path1; (split; [|intros [? _]; discriminate]);
        intros H; exfalso; inversion H as [|? ? ? g ? ? ? P G R]; subst; apply PN in P; subst g; unfold get_field_value in G; rewrite Ev in G; discriminate.
  Qed.

  Lemma interprets_fun o parts m m1 m2 p1 p2 : uoption_ok o -> msg_ok t m ->
    interprets p t own scope file o parts m m1 p1 -> interprets p t own scope file o parts m m2 p2 -> m1 = m2 /\ p1 = p2.
  Proof.
    intros Ho Hm H1 H2. assert (parts <> []) as Hne by (intros ->; inversion H1).
    destruct (set_option_spec o Ho parts m Hne Hm) as (m' & e & path & _ & _ & _ & IP).
    apply IP in H1. apply IP in H2. destruct H1 as (_ & -> & ->). destruct H2 as (_ & -> & ->). auto.
  Qed.

  Lemma set_options_spec path : forall us i m, Forall uoption_ok us -> Forall (fun o => uo_name o <> []) us -> msg_ok t m ->
    exists m' es locs, set_options p t own scope file path i us m = Ok (m', es, locs) /\ msg_ok t m' /\ dm_desc m' = dm_desc m /\
      ((es = [] /\ exists paths, interpreted p t own scope file us m m' paths /\ locs = moved path i paths) \/
       ((exists e es' before o after m1 paths, es = (e, Some (path ++ [999%Z; Z.of_nat (i + length before)])) :: es' /\
           us = before ++ o :: after /\ interpreted p t own scope file before m m1 paths /\
           forall m2 q, ~ interprets p t own scope file o (uo_name o) m1 m2 q) /\
        forall m1 paths, ~ interpreted p t own scope file us m m1 paths)).
  Proof.
    induction us as [|o us IH]; intros i m Ho Hn Hm; cbn [set_options].
    - do 3 eexists. split; [reflexivity|]. split; [exact Hm|]. split; [reflexivity|]. left. split; [reflexivity|]. exists []. split; constructor.
    - inversion_clear Ho. inversion_clear Hn.
      destruct (set_option_spec o ltac:(assumption) (uo_name o) m ltac:(assumption) Hm) as (m1 & e & to & -> & Hm1 & D1 & IP). cbn [rbind].
      destruct (IH (S i) m1 ltac:(assumption) ltac:(assumption) Hm1) as (m2 & es & locs & -> & Hm2 & D2 & J). cbn [rbind].
      destruct e as [e|]; do 3 eexists; (split; [reflexivity|]); (split; [exact Hm2|]); (split; [congruence|]).
      + right. split.
        * exists e, es, [], o, us, m, []. cbn [length]. rewrite Nat.add_0_r. split; [reflexivity|]. split; [reflexivity|]. split; [constructor|].
          intros x q HI. apply IP in HI. destruct HI as [? _]. discriminate.
        * intros x paths HI. inversion HI as [|? ? ? ? ? ? ? I1 I2]; subst. apply IP in I1. destruct I1 as [? _]. discriminate.
      + destruct J as [(-> & paths & J & ->)|((e & es' & before & o' & after & mb & paths & -> & -> & Hb & Hno) & J)].
        * left. split; [reflexivity|]. exists (to :: paths). split; [|reflexivity]. econstructor; [apply IP; auto|exact J].
        * right. split.
          { exists e, es', (o :: before), o', after, mb, (to :: paths). cbn [length]. rewrite Nat.add_succ_r. split; [reflexivity|].
            split; [reflexivity|]. split; [|exact Hno]. econstructor; [apply IP; auto|exact Hb]. }
          intros x paths' HI. inversion HI as [|? ? ? ? ? ? ? I1 I2]; subst. apply IP in I1. destruct I1 as (_ & -> & ->). eapply J. exact I2.
  Qed.

  Lemma interpreted_fun us : forall m m1 m2 p1 p2, Forall uoption_ok us -> msg_ok t m ->
    interpreted p t own scope file us m m1 p1 -> interpreted p t own scope file us m m2 p2 -> m1 = m2 /\ p1 = p2.
  Proof.
    induction us as [|o us IH]; intros m m1 m2 p1 p2 Ho Hm H1 H2;
      inversion H1 as [|? ? ? a1 ? q1 ? I1 J1]; inversion H2 as [|? ? ? a2 ? q2 ? I2 J2]; subst; [auto|].
    inversion_clear Ho as [|? ? Oo Ous]. destruct (interprets_fun _ _ _ _ _ _ _ Oo Hm I1 I2) as [-> ->].
    assert (uo_name o <> []) as Hne by (intros E; rewrite E in I2; inversion I2).
    destruct (set_option_spec o Oo _ m Hne Hm) as (m' & e & q & _ & Hm' & _ & IP). apply IP in I2. destruct I2 as (_ & -> & ->).
    destruct (IH _ _ _ _ _ Ous Hm' J1 J2) as [-> ->]. auto.
  Qed.

  Lemma clear_ok m n : msg_ok t m -> msg_ok t (clear_field_by_number t m n) /\ dm_desc (clear_field_by_number t m n) = dm_desc m.
  Proof.
    intros Hm. unfold clear_field_by_number. destruct (get_field t (dm_desc m) n); [|auto]. destruct m as [d fs]. split; [|reflexivity].
    apply remove_ok; assumption.
  Qed.

  (** one options message: rejected, or rewritten without the options as written *)
  Lemma resolve_one_spec d path encoded us : (d < length (t_messages t))%nat -> bytes_ok encoded ->
    Forall uoption_ok us -> Forall (fun o => uo_name o <> []) us ->
    exists b es locs, resolve_one p t own scope file d path encoded us = Ok (b, es, locs) /\
      ((es = [] /\ exists m m' paths, msg_decode t d encoded = Ok m /\ interpreted p t own scope file us m m' paths /\
          msg_ok t m' /\ dm_desc m' = d /\ enc_msg t (clear_field_by_number t m' 999) = Ok b /\ locs = moved path 0 paths) \/
       (((exists e, es = [(e, None)] /\ forall m, msg_decode t d encoded <> Ok m) \/
         exists e es' m before o after m1 paths, es = (e, Some (path ++ [999%Z; Z.of_nat (length before)])) :: es' /\
           msg_decode t d encoded = Ok m /\ us = before ++ o :: after /\ interpreted p t own scope file before m m1 paths /\
           forall m2 q, ~ interprets p t own scope file o (uo_name o) m1 m2 q) /\
        forall m m' paths, msg_decode t d encoded = Ok m -> ~ interpreted p t own scope file us m m' paths)).
  Proof.
    intros Hd Hb Ho Hn. unfold resolve_one. pose proof (Prop_Decode.C04_decode_total t d encoded Hw Hd Hb) as T.
    destruct (msg_decode t d encoded) as [m|e| |]; [|do 3 eexists; split; [reflexivity|]; right; split; [left; eexists; split; [reflexivity|discriminate]|intros ? ? ? [=]]|contradiction|contradiction].
    destruct T as [Hm Dm]. apply ok_msg_iff in Hm.
    destruct (set_options_spec path us 0 m Ho Hn Hm) as (m' & es & locs & -> & Hm' & D' & J). cbn [rbind].
    destruct (clear_ok m' 999 Hm') as [Hc Dc]. pose proof (proj2 (ok_msg_iff _ _) Hc) as Hc2.
    destruct (ok_msg_encodes t _ Hw Hc2) as [Hr Hv]. destruct (msg_encode_fine t _ (proj1 Hw) Hv Hr) as (b & l & Eb & _).
    rewrite Eb. cbn [rbind]. do 3 eexists. split; [reflexivity|]. destruct J as [(-> & paths & J & ->)|((e & es' & before & o & after & mb & paths & -> & Eu & Hbe & Hno) & J)].
    - left. split; [reflexivity|]. exists m, m', paths. split; [reflexivity|]. split; [exact J|]. split; [exact Hm'|]. split; [congruence|]. auto.
    - right. split; [|intros ? ? ? [= <-]; apply J]. right. exists e, es', m, before, o, after, mb, paths.
      split; [reflexivity|]. split; [reflexivity|]. auto.
  Qed.
End Walk.
