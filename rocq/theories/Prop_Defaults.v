(** Bytes defaults (C32) and other textual defaults (C33). *)
From Coq Require Import String.
From Verif Require Import Base BaseProofs Wire WireProofs Value Descr Proto Build VisitProofs EventProofs BuildFrame BuildNames BuildQuiet BuildResolve BuildInv DeclSpec DeclProofs PoolFacts ExampleFiles PoolMembers Prop_Members DefaultSpec.
From Coq Require Import List.
Import ListNotations.
Local Open Scope list_scope.
Local Open Scope N_scope.

(** ** C32 *)

Lemma is_octal_spec c : is_octal c = true <-> octal_digit c.
Proof. unfold is_octal, octal_digit. rewrite andb_true_iff, !N.leb_le. reflexivity. Qed.
Lemma starts_octal_cons c r : starts_octal (c :: r) <-> octal_digit c.
Proof.
  split; [intros [c' [r' [E H]]]; inversion E; subst; exact H|intros H; exists c, r; auto].
Qed.
Definition oct_from (a : N) (ds : str) : N := fold_left (fun a c => 8 * a + (c - 48)) ds a.
Lemma oct_from_mono ds : forall a, a <= oct_from a ds.
Proof. induction ds as [|d ds IH]; intros a; cbn; [lia|]. specialize (IH (8 * a + (d - 48))). unfold oct_from in *. lia. Qed.

Lemma octal_complete chk ds : forall n a r, (length ds <= n)%nat -> Forall octal_digit ds ->
  (length ds = n \/ ~ starts_octal r) -> oct_from a ds <= 255 -> octal chk n a (ds ++ r) = Ok (oct_from a ds, r).
Proof.
  induction ds as [|d ds IH]; intros n a r Hl Hd Hs Hv.
  - cbn [app oct_from fold_left]. destruct Hs as [<- |Hs]; [reflexivity|].
    destruct n; [destruct r; reflexivity|]. destruct r as [|c r]; [reflexivity|]. cbn [octal].
    destruct (is_octal c) eqn:E; [|reflexivity]. exfalso. apply Hs. apply starts_octal_cons. apply is_octal_spec. exact E.
  - cbn [length] in Hl. destruct n as [|n]; [lia|]. inversion Hd as [|? ? Hd1 Hd2]; subst. cbn [app octal].
    rewrite (proj2 (is_octal_spec d) Hd1).
    assert (oct_step chk a (d - 48) = Some (8 * a + (d - 48))) as ->.
    { unfold oct_step. pose proof (oct_from_mono ds (8 * a + (d - 48))). unfold oct_from in Hv, H. cbn [fold_left] in Hv.
      replace (a * 8) with (8 * a) by lia.
      destruct (N.leb_spec 256 (8 * a)); [lia|]. rewrite andb_false_r.
      rewrite (N.mod_small (8 * a)) by lia. destruct (N.leb_spec 256 (8 * a + (d - 48))); [lia|]. rewrite andb_false_r.
      rewrite N.mod_small by lia. reflexivity. }
    apply (IH n (8 * a + (d - 48)) r); [lia|exact Hd2|destruct Hs as [Hs|Hs]; [left; cbn in Hs; lia|right; exact Hs]|exact Hv].
Qed.
Lemma octal_sound n : forall a s o r, a <= 255 -> octal true n a s = Ok (o, r) ->
  exists ds, s = ds ++ r /\ (length ds <= n)%nat /\ Forall octal_digit ds /\ (length ds = n \/ ~ starts_octal r) /\
    o = oct_from a ds /\ o <= 255.
Proof.
  induction n as [|n IH]; intros a s o r Ha H.
  - cbn in H. assert (Ok (a, s) = Ok (o, r)) as H' by (destruct s; exact H). inversion H'; subst. exists []. cbn. auto 8.
  - destruct s as [|c s]; cbn [octal] in H.
    + inversion H; subst. exists []. cbn. split; [reflexivity|]. split; [lia|]. split; [constructor|]. split; [right; intros [? [? [E _]]]; discriminate|auto].
    + destruct (is_octal c) eqn:E.
      * destruct (oct_step true a (c - 48)) as [a'|] eqn:S; [|discriminate].
        assert (a' = 8 * a + (c - 48) /\ a' <= 255) as [-> Ha'].
        { unfold oct_step in S. cbn [andb] in S. destruct (N.leb_spec 256 (a * 8)); [discriminate|].
          rewrite (N.mod_small (a * 8)) in S by lia. destruct (N.leb_spec 256 (a * 8 + (c - 48))); [discriminate|].
          rewrite N.mod_small in S by lia. apply Some_inj in S. lia. }
        destruct (IH _ _ _ _ Ha' H) as (ds & -> & L & D & Q & Eo & Ho). exists (c :: ds). cbn [app length].
        split; [reflexivity|]. split; [lia|]. split; [constructor; [apply is_octal_spec; exact E|exact D]|].
        split; [destruct Q as [<- |Q]; auto|]. split; [exact Eo|exact Ho].
      * inversion H; subst. exists []. cbn. split; [reflexivity|]. split; [lia|]. split; [constructor|].
        split; [right; rewrite starts_octal_cons, <- is_octal_spec, E; discriminate|auto].
Qed.

Lemma simple_escape_letters l c : simple_escape l = Some c <-> In (l, c) letters.
Proof.
  split.
  - unfold simple_escape. intros H.
    repeat match type of H with
    | (if ?l =? ?k then _ else _) = _ => destruct (N.eqb_spec l k) as [-> |?]; [apply Some_inj in H; subst c; cbn; tauto|]
    end. discriminate.
  - cbn. intros H. repeat (destruct H as [E|H]; [inversion E; subst; reflexivity|]). destruct H.
Qed.
Lemma letter_not_octal l c : In (l, c) letters -> ~ octal_digit l /\ l <> 120 /\ l <> 88.
Proof. cbn. unfold octal_digit. intros H. repeat (destruct H as [E|H]; [inversion E; subst; lia|]). destruct H. Qed.
Lemma octal_no_letter d : octal_digit d -> simple_escape d = None.
Proof.
  intros H. destruct (simple_escape d) eqn:E; [|reflexivity]. apply simple_escape_letters in E. apply letter_not_octal in E. tauto.
Qed.
Lemma x_no_letter x : x = 120 \/ x = 88 -> simple_escape x = None /\ is_octal x = false /\ ((x =? 120) || (x =? 88)) = true.
Proof. intros [-> | ->]; repeat split; reflexivity. Qed.
Lemma hex_digit_spec c n : hex_digit c = Some n <-> hex_value c n.
Proof.
  unfold hex_digit, hex_value, is_digit. split.
  - destruct (N.leb_spec 48 c); destruct (N.leb_spec c 57); cbn [andb]; intros E;
      try (apply Some_inj in E; left; lia);
      destruct (N.leb_spec 97 c); destruct (N.leb_spec c 102); cbn [andb] in E; try (apply Some_inj in E; right; left; lia);
      destruct (N.leb_spec 65 c); destruct (N.leb_spec c 70); cbn [andb] in E; try (apply Some_inj in E; right; right; lia); discriminate.
  - intros H.
    destruct (N.leb_spec 48 c); destruct (N.leb_spec c 57); cbn [andb]; try (f_equal; lia);
    destruct (N.leb_spec 97 c); destruct (N.leb_spec c 102); cbn [andb]; try (f_equal; lia);
    destruct (N.leb_spec 65 c); destruct (N.leb_spec c 70); cbn [andb]; try (f_equal; lia); lia.
Qed.
Lemma boundary_spec s : boundary s = true <-> ~ starts_inside s.
Proof.
  unfold starts_inside. destruct s as [|c r]; cbn [boundary].
  - split; [intros _ [? [? [E _]]]; discriminate|reflexivity].
  - rewrite negb_true_iff, <- not_true_iff_false, andb_true_iff, !N.leb_le. split.
    + intros H [c' [r' [E Q]]]. inversion E; subst. lia.
    + intros H Q. apply H. exists c, r. auto.
Qed.

Lemma unescape_complete chk s bs : escapes true s bs -> forall fuel dst, (length s <= fuel)%nat ->
  unescape chk fuel dst s = Ok (Some (dst ++ bs)).
Proof.
  induction 1 as [|c s bs Hc H IH|l c s bs Hl H IH|ds s bs Hl Hd Hs Hv H IH|x h1 h2 n1 n2 s bs Hx H1 H2 Hb H IH|x h2 n2 s bs _ Hx H2 Hb H IH]; intros fuel dst Hf.
  - rewrite app_nil_r. destruct fuel; reflexivity.
  - cbn [length] in Hf. destruct fuel as [|fuel]; [lia|]. cbn [unescape].
    destruct (N.eqb_spec c 92); [contradiction|]. cbn [negb]. rewrite IH by lia. rewrite <- app_assoc. reflexivity.
  - cbn [length] in Hf. destruct fuel as [|fuel]; [lia|]. cbn [unescape]. rewrite N.eqb_refl. cbn [negb].
    rewrite (proj2 (simple_escape_letters l c) Hl). rewrite IH by lia. rewrite <- app_assoc. reflexivity.
  - destruct ds as [|d ds]; [cbn in Hl; lia|]. cbn [length app] in Hf. destruct fuel as [|fuel]; [lia|].
    inversion Hd as [|? ? Hd1 Hd2]; subst. cbn [unescape app]. rewrite N.eqb_refl. cbn [negb].
    rewrite (octal_no_letter _ Hd1), (proj2 (is_octal_spec d) Hd1).
    change (d :: ds ++ s) with ((d :: ds) ++ s). rewrite (octal_complete chk (d :: ds) 3 0 s); [|cbn in *; lia|exact Hd|exact Hs|exact Hv].
    cbn [rbind]. rewrite IH by (rewrite app_length in Hf; lia). rewrite <- app_assoc. reflexivity.
  - cbn [length] in Hf. destruct fuel as [|fuel]; [lia|]. cbn [unescape]. rewrite N.eqb_refl. cbn [negb].
    destruct (x_no_letter x Hx) as [-> [-> ->]]. rewrite (proj2 (boundary_spec s) Hb). unfold hex_byte.
    destruct (N.eqb_spec h1 43) as [-> |]; [destruct H1 as [H1|[H1|H1]]; lia|].
    rewrite (proj2 (hex_digit_spec _ _) H1), (proj2 (hex_digit_spec _ _) H2), (N.mul_comm n1). rewrite IH by lia. rewrite <- app_assoc. reflexivity.
  - cbn [length] in Hf. destruct fuel as [|fuel]; [lia|]. cbn [unescape]. rewrite N.eqb_refl. cbn [negb].
    destruct (x_no_letter x Hx) as [-> [-> ->]]. rewrite (proj2 (boundary_spec s) Hb). unfold hex_byte. rewrite N.eqb_refl.
    rewrite (proj2 (hex_digit_spec _ _) H2). rewrite IH by lia. rewrite <- app_assoc. reflexivity.
Qed.
Lemma unescape_sound fuel : forall dst s out, unescape true fuel dst s = Ok (Some out) ->
  exists bs, out = dst ++ bs /\ escapes true s bs.
Proof.
  assert (forall dst c out (bs : bytes), out = (dst ++ [c]) ++ bs -> out = dst ++ c :: bs) as AP.
  { intros dst c out bs ->. rewrite <- app_assoc. reflexivity. }
  induction fuel as [|fuel IH]; intros dst s out H.
  - destruct s; [|discriminate]. inversion H; subst. exists []. rewrite app_nil_r. split; [reflexivity|constructor].
  - destruct s as [|c s]; cbn [unescape] in H; [inversion H; subst; exists []; rewrite app_nil_r; split; [reflexivity|constructor]|].
    destruct (N.eqb_spec c 92) as [-> |Hc]; cbn [negb] in H.
    + destruct s as [|e s]; [discriminate|]. destruct (simple_escape e) as [y|] eqn:E.
      * destruct (IH _ _ _ H) as [bs [Q R]]. exists (y :: bs). split; [apply AP; exact Q|]. apply es_letter; [apply simple_escape_letters; exact E|exact R].
      * destruct (is_octal e) eqn:O.
        -- apply rbind_ok in H. destruct H as [[o r] [H1 H2]]. destruct (IH _ _ _ H2) as [bs [Q R]].
           apply octal_sound in H1; [|lia]. destruct H1 as (ds & Es & L & D & K & -> & B).
           destruct ds as [|d ds].
           { exfalso. cbn in Es. subst r. destruct K as [K|K]; [discriminate|]. apply K. apply starts_octal_cons, is_octal_spec, O. }
           exists (octal_value (d :: ds) :: bs). split; [apply AP; exact Q|]. rewrite Es. apply es_octal; auto. cbn in *. lia.
        -- destruct ((e =? 120) || (e =? 88)) eqn:Xe; [|discriminate]. apply orb_true_iff in Xe. rewrite !N.eqb_eq in Xe.
           destruct s as [|h1 [|h2 s]]; try discriminate. destruct (boundary s) eqn:Bo; [|discriminate].
           destruct (hex_byte h1 h2) as [y|] eqn:Hy; [|discriminate]. destruct (IH _ _ _ H) as [bs [Q R]].
           exists (y :: bs). split; [apply AP; exact Q|]. apply boundary_spec in Bo. unfold hex_byte in Hy.
           destruct (N.eqb_spec h1 43) as [-> |Hp].
           ++ apply hex_digit_spec in Hy. apply es_plus; auto.
           ++ destruct (hex_digit h1) as [n1|] eqn:E1; [|discriminate]. destruct (hex_digit h2) as [n2|] eqn:E2; [|discriminate].
              apply Some_inj in Hy. subst y. apply hex_digit_spec in E1, E2. rewrite (N.mul_comm n1). apply es_hex; auto.
    + destruct (IH _ _ _ H) as [bs [Q R]]. exists (c :: bs). split; [apply AP; exact Q|]. apply es_plain; assumption.
Qed.

(** What protoc writes for a byte string is read back as that byte string. *)
Lemma c_escape_escapes bs : Forall (fun c => c < 256) bs -> escapes false (c_escape bs) bs.
Proof.
  induction 1 as [|c bs Hc _ IH]; [constructor|]. unfold c_escape. cbn [map concat]. fold (c_escape bs). unfold c_escape_byte.
  destruct (N.eqb_spec c 10) as [-> |]; [apply es_letter; [cbn; tauto|exact IH]|].
  destruct (N.eqb_spec c 13) as [-> |]; [apply es_letter; [cbn; tauto|exact IH]|].
  destruct (N.eqb_spec c 9) as [-> |]; [apply es_letter; [cbn; tauto|exact IH]|].
  destruct (N.eqb_spec c 34) as [-> |]; [apply es_letter; [cbn; tauto|exact IH]|].
  destruct (N.eqb_spec c 39) as [-> |]; [apply es_letter; [cbn; tauto|exact IH]|].
  destruct (N.eqb_spec c 92) as [-> |]; [apply es_letter; [cbn; tauto|exact IH]|].
  destruct ((c <? 32) || (127 <=? c)).
  - pose proof (N.div_mod' c 8). pose proof (N.mod_lt c 8). pose proof (N.div_mod' (c / 8) 8). pose proof (N.mod_lt (c / 8) 8).
    rewrite N.div_div in * by lia. change (8 * 8) with 64 in *.
    set (a := c / 64) in *. set (q := (c / 8) mod 8) in *. set (r := c mod 8) in *.
    assert (octal_value [48 + a; 48 + q; 48 + r] = c) as E.
    { cbn. lia. }
    rewrite <- E at 1. change ([92; 48 + a; 48 + q; 48 + r] ++ c_escape bs) with (92 :: [48 + a; 48 + q; 48 + r] ++ c_escape bs).
    apply es_octal; [cbn; lia|repeat constructor; lia|left; reflexivity|rewrite E; lia|exact IH].
  - apply es_plain; [assumption|exact IH].
Qed.
Lemma escapes_plus s bs : escapes false s bs -> escapes true s bs.
Proof. induction 1; try (econstructor; eassumption). discriminate. Qed.

Theorem C32_inverse_of_protoc chk bs : Forall (fun c => c < 256) bs -> unescape_c chk (c_escape bs) = Ok (Some bs).
Proof.
  intros H. unfold unescape_c. rewrite (unescape_complete chk (c_escape bs) bs); [reflexivity|apply escapes_plus, c_escape_escapes, H|lia].
Qed.
Print Assumptions C32_inverse_of_protoc.
Example C32_nonvacuous : unescape_c true (c_escape [0; 9; 65; 92; 34; 200; 48; 255; 49]) = Ok (Some [0; 9; 65; 92; 34; 200; 48; 255; 49])
  /\ c_escape [200; 48] = [92; 51; 49; 48; 48].
Proof. split; vm_compute; reflexivity. Qed.

(** Every escaped form is read, whichever spelling is used for each byte; and
    with overflow checks nothing else is (except for the spelling [\x+1]). *)
Theorem C32_accepts chk s bs : escapes false s bs -> unescape_c chk s = Ok (Some bs).
Proof. intros H. unfold unescape_c. rewrite (unescape_complete chk s bs); [reflexivity|apply escapes_plus, H|lia]. Qed.
Print Assumptions C32_accepts.
Theorem C32_only_escapes s bs : unescape_c true s = Ok (Some bs) <-> escapes true s bs.
Proof.
  split.
  - intros H. apply unescape_sound in H. destruct H as [bs' [-> H]]. exact H.
  - intros H. unfold unescape_c. rewrite (unescape_complete true s bs H); [reflexivity|lia].
Qed.
Print Assumptions C32_only_escapes.

(** Any other string over ASCII in which no octal escape exceeds [\377] is an error. *)
Definition ascii (s : str) : Prop := Forall (fun c => c < 128) s.
Definition octal_small (s : str) : Prop := forall a d1 d2 d3 r, s = a ++ 92 :: d1 :: d2 :: d3 :: r ->
  octal_digit d1 -> octal_digit d2 -> octal_digit d3 -> octal_value [d1; d2; d3] <= 255.
Lemma octal_small_cons c s : octal_small (c :: s) -> octal_small s.
Proof. intros H a d1 d2 d3 r ->. apply (H (c :: a) d1 d2 d3 r). reflexivity. Qed.
Lemma octal_small_app p s : octal_small (p ++ s) -> octal_small s.
Proof. induction p; cbn; [auto|]. intros H. apply octal_small_cons in H. auto. Qed.
Lemma octal_total chk n : forall a s, (forall ds r, s = ds ++ r -> (length ds <= n)%nat -> Forall octal_digit ds -> oct_from a ds <= 255) ->
  exists o r ds, octal chk n a s = Ok (o, r) /\ s = ds ++ r /\ (0 < n -> starts_octal s -> ds <> [])%nat.
Proof.
  induction n as [|n IH]; intros a s H.
  - exists a, s, []. split; [destruct s; reflexivity|]. split; [reflexivity|lia].
  - destruct s as [|c s]; [exists a, [], []; split; [reflexivity|]; split; [reflexivity|intros _ [? [? [E _]]]; discriminate]|].
    cbn [octal]. destruct (is_octal c) eqn:E.
    + apply is_octal_spec in E. pose proof (H [c] s eq_refl ltac:(cbn; lia) (Forall_cons _ E (Forall_nil _))) as B. cbn in B.
      assert (oct_step chk a (c - 48) = Some (8 * a + (c - 48))) as ->.
      { unfold oct_step. replace (a * 8) with (8 * a) by lia.
        destruct (N.leb_spec 256 (8 * a)); [lia|]. rewrite andb_false_r.
        rewrite (N.mod_small (8 * a)) by lia. destruct (N.leb_spec 256 (8 * a + (c - 48))); [lia|]. rewrite andb_false_r.
        rewrite N.mod_small by lia. reflexivity. }
      destruct (IH (8 * a + (c - 48)) s) as (o & r & ds & H1 & H2 & H3).
      { intros ds r -> L D. apply (H (c :: ds) r); [reflexivity|cbn; lia|constructor; assumption]. }
      exists o, r, (c :: ds). split; [exact H1|]. split; [rewrite H2; reflexivity|discriminate].
    + exists a, (c :: s), []. split; [reflexivity|]. split; [reflexivity|]. intros _ Q. apply starts_octal_cons, is_octal_spec in Q. congruence.
Qed.
Lemma unescape_total chk fuel : forall dst s, (length s <= fuel)%nat -> ascii s -> octal_small s ->
  exists o, unescape chk fuel dst s = Ok o.
Proof.
  induction fuel as [|fuel IH]; intros dst s L A O.
  - destruct s; [|cbn in L; lia]. eexists. reflexivity.
  - destruct s as [|c s]; [eexists; reflexivity|]. cbn [unescape]. cbn [length] in L.
    inversion A as [|? ? A1 A2]; subst.
    destruct (N.eqb_spec c 92) as [-> |Hc]; cbn [negb]; [|apply IH; [lia|exact A2|eapply octal_small_cons; exact O]].
    destruct s as [|e s]; [eexists; reflexivity|]. inversion A2 as [|? ? A3 A4]; subst. cbn [length] in L.
    destruct (simple_escape e); [apply IH; [lia|exact A4|do 2 eapply octal_small_cons; exact O]|].
    destruct (is_octal e) eqn:Oe.
    + destruct (octal_total chk 3 0 (e :: s)) as (o & r & ds & H1 & H2 & H3).
      { intros ds r E Ld D. destruct ds as [|d1 [|d2 [|d3 [|? ?]]]]; cbn in Ld; try lia;
          repeat match goal with H : Forall octal_digit (_ :: _) |- _ => inversion H; clear H; subst end; unfold octal_digit in *; try (cbn; lia).
        apply (O [] d1 d2 d3 r); cbn; rewrite ?E; auto. }
      rewrite H1. cbn [rbind]. assert (ds <> []) as Nd by (apply H3; [lia|apply starts_octal_cons, is_octal_spec, Oe]).
      assert (length (e :: s) = length ds + length r)%nat as Ll by (rewrite H2, app_length; reflexivity).
      destruct ds as [|d ds]; [contradiction|]. cbn [length] in Ll.
      apply IH; [lia| |].
      * assert (ascii ((d :: ds) ++ r)) as Q by (rewrite <- H2; exact A2). apply Forall_app in Q. apply Q.
      * apply octal_small_cons in O. rewrite H2 in O. apply octal_small_app in O. exact O.
    + destruct ((e =? 120) || (e =? 88)); [|eexists; reflexivity].
      destruct s as [|h1 [|h2 s]]; try (eexists; reflexivity).
      inversion A4 as [|? ? A5 A6]; subst. inversion A6 as [|? ? A7 A8]; subst. cbn [length] in L.
      assert (boundary s = true) as ->.
      { destruct s as [|c s]; [reflexivity|]. inversion A8; subst. cbn. destruct (N.leb_spec 128 c); [lia|reflexivity]. }
      destruct (hex_byte h1 h2); [|eexists; reflexivity]. apply IH; [lia|exact A8|do 4 eapply octal_small_cons; exact O].
Qed.
Theorem C32_malformed_is_error_partial chk s : ascii s -> octal_small s -> exists o, unescape_c chk s = Ok o.
Proof. intros A O. unfold unescape_c. apply unescape_total; [lia|exact A|exact O]. Qed.
Print Assumptions C32_malformed_is_error_partial.
Example C32_total_nonvacuous : ascii (b "\377\q") /\ octal_small (b "\377\q") /\ unescape_c true (b "\377\q") = Ok None.
Proof.
  split; [repeat constructor|]. split; [|vm_compute; reflexivity].
  intros a d1 d2 d3 r E H1 H2 H3. vm_compute in E.
  destruct a as [|a1 [|a2 [|a3 [|a4 [|a5 [|a6 a]]]]]]; inversion E; subst; try (vm_compute; discriminate); unfold octal_digit in *; try lia; destruct a; discriminate.
Qed.

(** Not every malformed string is an error: an octal escape above [\377] or a hex
    escape that ends inside a character panics (or the octal value wraps, without
    overflow checks), and a plus sign passes for a hex digit. *)
Theorem C32_refuted_malformed :
  unescape_c true (b "\777") = Panic /\ unescape_c false (b "\777") = Ok (Some [255]) /\
  unescape_c true [92; 120; 49; 195; 169] = Panic /\
  (unescape_c true (b "\x+1") = Ok (Some [1]) /\ forall bs, ~ escapes false (b "\x+1") bs).
Proof.
  repeat (split; [vm_compute; reflexivity|]). intros bs H. vm_compute in H.
  inversion H as [|? ? ? N|? ? ? ? Hl|ds ? ? L D|? ? ? ? ? ? ? ? H1|]; subst.
  - contradiction.
  - cbn in Hl. repeat (destruct Hl as [E|Hl]; [inversion E|]). destruct Hl.
  - destruct ds as [|d ds]; [cbn in L; lia|]. match goal with E : (d :: ds) ++ _ = _ |- _ => cbn in E; inversion E; subst end.
    inversion D as [|? ? D1 _]; subst. unfold octal_digit in D1. lia.
  - destruct H1 as [H1|[H1|H1]]; lia.
  - discriminate.
Qed.
Print Assumptions C32_refuted_malformed.

(** ** C33 *)

Lemma parse_digits_spec s n : parse_digits s = Some n <-> decimal s n.
Proof.
  split.
  - unfold parse_digits. destruct s as [|c0 s0]; [discriminate|]. assert (c0 :: s0 <> []) as Ne by discriminate.
    revert Ne. generalize (c0 :: s0). clear. intros s Ne. destruct (forallb is_digit s) eqn:F; [|discriminate].
    intros E. apply Some_inj in E. subst n. revert Ne F. induction s as [|c s IH] using rev_ind; [contradiction|]. intros _ F.
    rewrite forallb_app in F. apply andb_true_iff in F. destruct F as [F1 F2]. cbn in F2. rewrite andb_true_r in F2.
    unfold is_digit in F2. apply andb_true_iff in F2. rewrite !N.leb_le in F2.
    destruct s as [|c1 s]; [apply dec_one; exact F2|].
    assert (dec_value ((c1 :: s) ++ [c]) = 10 * dec_value (c1 :: s) + (c - 48)) as ->.
    { unfold dec_value. rewrite fold_left_app. set (w := fold_left _ (c1 :: s) 0). cbn [fold_left]. lia. }
    apply dec_more; [apply IH; [discriminate|exact F1]|exact F2].
  - intros H. assert (s <> [] /\ forallb is_digit s = true /\ dec_value s = n) as [Ne [F <-]].
    { induction H as [c H|s n c H [Ne [F E]] D].
      - split; [discriminate|]. unfold is_digit, digit in *. cbn. rewrite !(proj2 (N.leb_le _ _)) by lia. split; reflexivity.
      - split; [destruct s; discriminate|]. rewrite forallb_app, F. cbn. unfold is_digit. unfold digit in D.
        rewrite !(proj2 (N.leb_le _ _)) by lia. split; [reflexivity|]. unfold dec_value in *. rewrite fold_left_app, E. cbn. lia. }
    unfold parse_digits. destruct s; [contradiction|]. rewrite F. reflexivity.
Qed.
Lemma decimal_head s n : decimal s n -> exists c r, s = c :: r /\ digit c.
Proof.
  induction 1 as [c H|s n c H [c' [r [-> D]]] Dc]; [exists c, []; auto|]. exists c', (r ++ [c]). auto.
Qed.
Lemma parse_unsigned_spec s n : parse_unsigned s = Some n <-> natural s n.
Proof.
  assert (forall c r, c <> 43 -> parse_unsigned (c :: r) = parse_digits (c :: r)) as U.
  { intros c r Hc. unfold parse_unsigned. destruct (N.eq_dec c 43); [contradiction|].
    destruct c as [|p]; [reflexivity|]. repeat (destruct p as [p|p|]; try reflexivity); contradiction. }
  split.
  - destruct s as [|c r]; [discriminate|]. destruct (N.eq_dec c 43) as [-> |Hc].
    + intros H. apply nat_plus. apply parse_digits_spec. exact H.
    + rewrite U by exact Hc. intros H. apply nat_plain. apply parse_digits_spec. exact H.
  - intros [s' n' H|s' n' H].
    + destruct (decimal_head _ _ H) as [c [r [-> D]]]. unfold digit in D. rewrite U by lia. apply parse_digits_spec. exact H.
    + apply parse_digits_spec. exact H.
Qed.
Lemma parse_signed_spec s z : parse_signed s = Some z <-> integer s z.
Proof.
  assert (forall c r, c <> 43 -> c <> 45 -> parse_signed (c :: r) = option_map Z.of_N (parse_digits (c :: r))) as U.
  { intros c r Hc Hd. unfold parse_signed.
    destruct c as [|p]; [reflexivity|]. repeat (destruct p as [p|p|]; try reflexivity); contradiction. }
  split.
  - destruct s as [|c r]; [discriminate|]. destruct (N.eq_dec c 43) as [-> |Hc]; [|destruct (N.eq_dec c 45) as [-> |Hd]].
    + cbn [parse_signed]. destruct (parse_digits r) eqn:E; [|discriminate]. cbn. intros H. apply Some_inj in H. subst z. apply int_plus. apply parse_digits_spec. exact E.
    + cbn [parse_signed]. destruct (parse_digits r) eqn:E; [|discriminate]. cbn. intros H. apply Some_inj in H. subst z. apply int_minus. apply parse_digits_spec. exact E.
    + rewrite U by assumption. destruct (parse_digits (c :: r)) eqn:E; [|discriminate]. cbn [option_map]. intros H. apply Some_inj in H. subst z. apply int_plain. apply parse_digits_spec. exact E.
  - intros [s' n' H|s' n' H|s' n' H].
    + destruct (decimal_head _ _ H) as [c [r [-> D]]]. unfold digit in D. rewrite U by lia. rewrite (proj2 (parse_digits_spec _ _) H). reflexivity.
    + cbn [parse_signed]. rewrite (proj2 (parse_digits_spec _ _) H). reflexivity.
    + cbn [parse_signed]. rewrite (proj2 (parse_digits_spec _ _) H). reflexivity.
Qed.
Lemma ranged_spec {A} (okb : A -> bool) o a : ranged okb o = Some a <-> o = Some a /\ okb a = true.
Proof.
  unfold ranged. destruct o as [x|]; [|split; [discriminate|intros [E _]; discriminate]].
  destruct (okb x) eqn:E; split.
  - intros H. apply Some_inj in H. subst. auto.
  - intros [H _]. exact H.
  - discriminate.
  - intros [H1 H2]. apply Some_inj in H1. congruence.
Qed.
Lemma i32_iff z : i32_ok z = true <-> (- 2 ^ 31 <= z < 2 ^ 31)%Z.
Proof. unfold i32_ok. rewrite andb_true_iff, !Z.leb_le. change (2 ^ 31)%Z with 2147483648%Z. lia. Qed.
Lemma i64_iff z : i64_ok z = true <-> (- 2 ^ 63 <= z < 2 ^ 63)%Z.
Proof. unfold i64_ok. rewrite andb_true_iff, !Z.leb_le. change (2 ^ 63)%Z with 9223372036854775808%Z. lia. Qed.
Lemma u32_iff z : u32_ok z = true <-> z < 2 ^ 32.
Proof. unfold u32_ok. rewrite N.ltb_lt. change (2 ^ 32) with two32. reflexivity. Qed.
Lemma u64_iff z : u64_ok z = true <-> z < 2 ^ 64.
Proof. unfold u64_ok. rewrite N.ltb_lt. change (2 ^ 64) with two64. reflexivity. Qed.
Lemma parse_bool_spec s x : parse_bool s = Some x <-> (s = s2b "true"%string /\ x = true) \/ (s = s2b "false"%string /\ x = false).
Proof.
  unfold parse_bool. destruct (bytes_eqb s (s2b "true"%string)) eqn:E1; [apply bytes_eqb_eq in E1|].
  - subst s. split; [intros H; apply Some_inj in H; auto|]. intros [[_ ->]|[E _]]; [reflexivity|discriminate].
  - destruct (bytes_eqb s (s2b "false"%string)) eqn:E2; [apply bytes_eqb_eq in E2|].
    + subst s. split; [intros H; apply Some_inj in H; auto|]. intros [[E _]|[_ ->]]; [discriminate|reflexivity].
    + split; [discriminate|]. intros [[-> _]|[-> _]]; [rewrite bytes_eqb_refl in E1|rewrite bytes_eqb_refl in E2]; discriminate.
Qed.
Lemma omap_some {A B} (g : A -> B) o v : option_map g o = Some v <-> exists a, o = Some a /\ g a = v.
Proof.
  destruct o as [a|]; cbn; split.
  - intros H. apply Some_inj in H. eauto.
  - intros [a' [H <-]]. apply Some_inj in H. subst. reflexivity.
  - discriminate.
  - intros [a' [H _]]. discriminate.
Qed.
Lemma Ok_Some_iff {A} (o : option A) v : Ok o = Ok (Some v) <-> o = Some v.
Proof. split; [intros H; inversion H; reflexivity|intros ->; reflexivity]. Qed.

(** The parser for one value: exactly the strings that denote a value of the kind,
    with that value; every other string is an error, never a panic. *)
Definition scalar_text (k : kind) : Prop := textual k /\ match k with KEnum _ | KMessage _ | KGroup _ => False | _ => True end.
Theorem C33_scalar_exact X vs k s v : scalar_text k -> (parse_simple X k s = Ok (Some v) <-> denotes vs k s v).
Proof.
  intros [T1 T2]. destruct k; try contradiction; unfold parse_simple; rewrite Ok_Some_iff, ?omap_some.
  all: try (split;
    [intros (z & H & <-); apply ranged_spec in H; destruct H as [H1 H2]; apply parse_signed_spec in H1; first [apply i32_iff in H2; apply dn_i32|apply i64_iff in H2; apply dn_i64]; cbn; tauto
    |intros H; inversion H as [? ? z K I R|? ? z K I R|? ? z K I R|? ? z K I R| | | |]; subst; cbn in K; try (exfalso; clear - K; intuition discriminate);
     exists z; split; [|reflexivity]; apply ranged_spec; split; [apply parse_signed_spec; exact I|first [apply i32_iff|apply i64_iff]; exact R]]; fail).
  all: try (split;
    [intros (z & H & <-); apply ranged_spec in H; destruct H as [H1 H2]; apply parse_unsigned_spec in H1; first [apply u32_iff in H2; apply dn_u32|apply u64_iff in H2; apply dn_u64]; cbn; tauto
    |intros H; inversion H as [? ? z K I R|? ? z K I R|? ? z K I R|? ? z K I R| | | |]; subst; cbn in K; try (exfalso; clear - K; intuition discriminate);
     exists z; split; [|reflexivity]; apply ranged_spec; split; [apply parse_unsigned_spec; exact I|first [apply u32_iff|apply u64_iff]; exact R]]; fail).
  - split.
    + intros (x & H & <-). apply parse_bool_spec in H. destruct H as [[-> ->]|[-> ->]]; constructor.
    + intros H; inversion H as [? ? z K I R|? ? z K I R|? ? z K I R|? ? z K I R| | | |]; subst; try (exfalso; cbn in K; clear - K; intuition discriminate);
        eexists; (split; [|reflexivity]); reflexivity.
  - split.
    + intros H. apply Some_inj in H. subst. constructor.
    + intros H; inversion H as [? ? z K I R|? ? z K I R|? ? z K I R|? ? z K I R| | | |]; subst; try (exfalso; cbn in K; clear - K; intuition discriminate). reflexivity.
Qed.
Print Assumptions C33_scalar_exact.
Theorem C33_scalar_total X k s : scalar_text k -> exists o, parse_simple X k s = Ok o.
Proof. intros [T1 T2]. destruct k; try contradiction; eexists; reflexivity. Qed.

Definition enum_values (p : pool) (e : nat) : list (str * Z) :=
  match nth_error (p_enums p) e with Some en => map (fun v => (id_name (ev_id v), ev_number v)) (e_values en) | None => [] end.

Lemma find_value_spec l s x : find (fun x => bytes_eqb (id_name (ev_id x)) s) l = Some x ->
  exists pre post, map (fun v => (id_name (ev_id v), ev_number v)) l = pre ++ (s, ev_number x) :: post /\ ~ In s (map fst pre).
Proof.
  induction l as [|a l IH]; cbn; [discriminate|]. destruct (bytes_eqb (id_name (ev_id a)) s) eqn:E.
  - intros H. apply Some_inj in H. subst a. apply bytes_eqb_eq in E. subst s. exists [], (map (fun v => (id_name (ev_id v), ev_number v)) l). split; [reflexivity|intros []].
  - intros H. destruct (IH H) as [pre [post [E1 E2]]]. exists ((id_name (ev_id a), ev_number a) :: pre), post. rewrite E1. split; [reflexivity|].
    cbn. intros [Q|Q]; [rewrite Q, bytes_eqb_refl in E; discriminate|contradiction].
Qed.
Lemma find_value_none l s : find (fun x => bytes_eqb (id_name (ev_id x)) s) l = None ->
  ~ In s (map fst (map (fun v => (id_name (ev_id v), ev_number v)) l)).
Proof.
  induction l as [|a l IH]; cbn; [intros _ []|]. destruct (bytes_eqb (id_name (ev_id a)) s) eqn:E; [discriminate|].
  intros H [Q|Q]; [rewrite Q, bytes_eqb_refl in E; discriminate|exact (IH H Q)].
Qed.

(** The default of a field during a build: a string that denotes a value is
    accepted and gives that value; any other adds an error, with which the build
    fails. *)
Theorem C33_default_exact X k s f v : textual k -> (forall e, k = KEnum e -> (e < length (p_enums (v_pool v)))%nat) -> (fst f < length (p_files (v_pool v)))%nat ->
  (exists x, denotes (enum_values (v_pool v)) k s x /\ parse_default X k (Some s) f v = Ok (Some x, v)) \/
  ((forall x, ~ denotes (enum_values (v_pool v)) k s x) /\
   parse_default X k (Some s) f v = Ok (None, V (v_pool v) (v_errs v ++ [at_spot (inside_spot f [7%Z]) (ErrDefault s)]))).
Proof.
  intros T He Hf.
  assert ((let! v' := push_err [fst f] (at_spot (inside_spot f [7%Z]) (ErrDefault s)) v in Ok (@None value, v')) = Ok (None, V (v_pool v) (v_errs v ++ [at_spot (inside_spot f [7%Z]) (ErrDefault s)]))) as PB.
  { unfold push_err. cbn [forallb]. unfold label_ok. rewrite (proj2 (Nat.ltb_lt _ _) Hf). reflexivity. }
  assert (scalar_text k -> (exists x, denotes (enum_values (v_pool v)) k s x /\ (let! o := parse_simple X k s in match o with Some x => Ok (Some x, v) | None => let! v' := push_err [fst f] (at_spot (inside_spot f [7%Z]) (ErrDefault s)) v in Ok (None, v') end) = Ok (Some x, v)) \/
    ((forall x, ~ denotes (enum_values (v_pool v)) k s x) /\ (let! o := parse_simple X k s in match o with Some x => Ok (Some x, v) | None => let! v' := push_err [fst f] (at_spot (inside_spot f [7%Z]) (ErrDefault s)) v in Ok (None, v') end) = Ok (None, V (v_pool v) (v_errs v ++ [at_spot (inside_spot f [7%Z]) (ErrDefault s)])))) as SC.
  { intros S. destruct (C33_scalar_total X k s S) as [[x|] E].
    - left. exists x. split; [eapply C33_scalar_exact; eassumption|]. rewrite E. reflexivity.
    - right. split; [|rewrite E; exact PB]. intros x D. apply (C33_scalar_exact X) in D; [congruence|exact S]. }
  destruct k; try contradiction; try (apply SC; split; exact Logic.I).
  all: try (right; split; [|exact PB]; intros x D; inversion D as [? ? ? K|? ? ? K|? ? ? K|? ? ? K| | | |]; subst; cbn in K; clear - K; intuition discriminate).
  - cbn [parse_default]. specialize (He _ eq_refl). rename i into n. destruct (nth_error (p_enums (v_pool v)) n) as [en|] eqn:En; [|apply nth_error_None in En; lia].
    unfold at_. rewrite En. cbn [rbind]. assert (enum_values (v_pool v) n = map (fun v => (id_name (ev_id v), ev_number v)) (e_values en)) as Ev by (unfold enum_values; rewrite En; reflexivity).
    destruct (find _ (e_values en)) as [x|] eqn:F.
    + left. exists (VEnum (ev_number x)). split; [|reflexivity]. apply find_value_spec in F. destruct F as [pre [post [E1 E2]]].
      eapply dn_enum; [rewrite Ev; exact E1|exact E2].
    + right. split; [|exact PB]. intros x D. inversion D as [? ? ? K|? ? ? K|? ? ? K|? ? ? K| | | |? pre ? z post E1 E2]; subst; try (cbn in K; clear - K; intuition discriminate).
      apply find_value_none in F. apply F. rewrite <- Ev, E1, map_app, in_app_iff. right. left. reflexivity.
Qed.
Print Assumptions C33_default_exact.

(** Every field of every pool: the default is there iff declared, and is what the
    declared string denotes. *)
Theorem C33_defaults_in_pools X p i mi : search_ok X -> reachable X p -> nth_error (p_messages p) i = Some mi ->
  exists f dm scope, nth_error (pool_files p) (id_file (m_id mi)) = Some f /\ message_at f (id_path (m_id mi)) scope dm /\
    Forall2 (fun fd v =>
      match fp_default fd with
      | None => fd_default v = None
      | Some s => textual (fd_kind v) -> exists x, fd_default v = Some x /\ denotes (enum_values p) (fd_kind v) s x
      end) (dp_fields dm) (msg_fields_index (p_tables p) i).
Proof.
  intros SO R Hm. pose proof (reachable_Inv _ _ SO R) as I.
  destruct (message_decl X p i mi I Hm) as (f & dm & scope & n0 & Hf & Hd & Hfull & _ & _ & _ & F & _ & _).
  exists f, dm, scope. split; [exact Hf|]. split; [exact Hd|].
  pose proof (field_decl _ _ _ _ _ _ _ _ _ F) as FD. unfold msg_fields_index. cbn [p_tables t_messages]. rewrite Hm.
  clear - FD. revert FD. generalize (m_fields mi). intros l FD. induction FD as [|fd x fds xs H FD IH]; cbn [map]; constructor; [|exact IH].
  destruct H as [j (g & k & d & _ & _ & _ & D & _ & ->)]. cbn [field_of field_view fd_default fd_kind f_default f_kind].
  unfold default_spec in D. destruct (fp_default fd) as [s|]; [|exact D]. intros T. destruct D as [v [-> D]]. exists v. split; [reflexivity|].
  destruct k; try contradiction; try (eapply C33_scalar_exact; [split; exact Logic.I|exact D]).
  destruct D as (en & x & En & F & ->). apply find_value_spec in F. destruct F as [pre [post [E1 E2]]].
  eapply dn_enum; [|exact E2]. unfold enum_values. rewrite En. exact E1.
Qed.
Print Assumptions C33_defaults_in_pools.
Theorem C32_defaults_in_pools X p i mi : x_checked X = true -> search_ok X -> reachable X p -> nth_error (p_messages p) i = Some mi ->
  exists f dm scope, nth_error (pool_files p) (id_file (m_id mi)) = Some f /\ message_at f (id_path (m_id mi)) scope dm /\
    Forall2 (fun fd v => forall s, fp_default fd = Some s -> fd_kind v = KBytes ->
      exists bs, fd_default v = Some (VBytes bs) /\ escapes true s bs) (dp_fields dm) (msg_fields_index (p_tables p) i).
Proof.
  intros Ck SO R Hm. pose proof (reachable_Inv _ _ SO R) as I.
  destruct (message_decl X p i mi I Hm) as (f & dm & scope & n0 & Hf & Hd & Hfull & _ & _ & _ & F & _ & _).
  exists f, dm, scope. split; [exact Hf|]. split; [exact Hd|].
  pose proof (field_decl _ _ _ _ _ _ _ _ _ F) as FD. unfold msg_fields_index. cbn [p_tables t_messages]. rewrite Hm.
  clear - Ck FD. revert FD. generalize (m_fields mi). intros l FD. induction FD as [|fd x fds xs H FD IH]; cbn [map]; constructor; [|exact IH].
  destruct H as [j (g & k & d & _ & _ & _ & D & _ & ->)]. cbn [field_of field_view fd_default fd_kind f_default f_kind].
  unfold default_spec in D. intros s E ->. rewrite E in D. destruct D as [v [-> D]]. cbn [parse_simple] in D. rewrite Ck in D.
  apply rbind_ok in D. destruct D as [[bs|] [D1 D2]]; [|discriminate]. cbn in D2. inversion D2; subst. exists bs. split; [reflexivity|].
  apply C32_only_escapes. exact D1.
Qed.
Print Assumptions C32_defaults_in_pools.

Definition dfld (name : string) (num : Z) (ty : ptype) (tn d : string) : fproto :=
  FP (b name) None num Optional ty (b tn) (Some (b d)) None None None false.
Definition file_df : file :=
  File (b "df.proto") (b "df") [] [] []
    [DP (b "D") [dfld "i" 1 TInt32 "" "-2147483648"; dfld "u" 2 TUint64 "" "18446744073709551615"; dfld "t" 3 TBool "" "true";
                 dfld "s" 4 TString "" "x y"; dfld "e" 5 TEnum "E" "B"; dfld "bs" 6 TBytes "" "\001\x41\n"]
        [] [] [] [] [] false []]
    [EP (b "E") [(b "A", 0%Z); (b "B", 7%Z)] [] None] [] [] None.
Definition file_df_bad (d : string) : file :=
  File (b "df.proto") (b "df") [] [] [] [DP (b "D") [dfld "i" 1 TInt32 "" d] [] [] [] [] [] false []] [] [] [] None.
Definition pool_df : pool := built (build_files demo_externs 10 empty_pool [file_df]).
Lemma built_df : build_files demo_externs 10 empty_pool [file_df] = Built pool_df.
Proof. vm_compute. reflexivity. Qed.
Lemma reach_df : reachable demo_externs pool_df.
Proof. apply (re_built _ 10 empty_pool [file_df] _ (re_empty _)); [repeat constructor; discriminate|exact built_df]. Qed.
Example C33_nonvacuous : reachable demo_externs pool_df /\
  map fd_default (msg_fields_index (p_tables pool_df) 0) =
    [Some (VI32 (-2147483648)); Some (VU64 18446744073709551615); Some (VBool true); Some (VString (b "x y")); Some (VEnum 7); Some (VBytes [1; 65; 10])] /\
  (forall d, In d ["2147483648"; "-"; ""; "1x"; "0x10"; " 1"]%string ->
     match build_files demo_externs 10 empty_pool [file_df_bad d] with Rejected _ _ => True | _ => False end).
Proof.
  split; [exact reach_df|]. split; [vm_compute; reflexivity|].
  cbn [In]. intros d H. repeat (destruct H as [<- |H]; [vm_compute; exact Logic.I|]). destruct H.
Qed.
