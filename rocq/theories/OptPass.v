(** The pass over the options of the files: proofs of C58. *)
From Coq Require Import String.
From Verif Require Import Base BaseProofs Wire Value Descr Fields Codec DescrOk DescrProofs MergeProofs Float TextFormat TextParse
  Proto Build Prop_TextSafe OptResolve OptSpec OptProofs OptPlaces.
Open Scope list_scope.
Open Scope N_scope.

(** what the pass needs of the two pools *)
Record ready (g p : pool) : Prop := {
  rd_sane : forall own, wf (options_tables g p own) /\ text_saneb (options_tables g p own) = true;
  rd_defs : forall n d, assoc_s n (p_names p) = Some d ->
    (d_file d < length (p_files p))%nat /\ (forall i, d_kind d = DExtension i -> (i < length (p_exts p))%nat);
  rd_own : forall i x, nth_error (p_exts p) i = Some x -> In (ext_view (p_tables p) x) (msg_exts (p_tables p) (x_extendee x));
  rd_msg : forall own ty d, options_message g p ty = Some (own, d) -> (d < length (t_messages (options_tables g p own)))%nat;
  rd_types : forall ty, In ty option_types -> options_message g p ty <> None
}.
(** what the files hold: bytes, options of Rust's types, with names *)
Definition raw_ok (raw : raw_options) : Prop :=
  forall file path encoded us, raw file path = Some (encoded, us) ->
    bytes_ok encoded /\ Forall uoption_ok us /\ Forall (fun o => uo_name o <> []) us.

Lemma options_at_types f path ty s : file_options f path ty s -> In ty option_types.
Proof.
  assert (forall scope e path ty s, enum_options scope e path ty s -> In ty option_types) as E.
  { intros scope e q y z H. inversion H; subst; vm_compute; tauto. }
  assert (forall full m path ty s, message_options full m path ty s -> In ty option_types) as M.
  { intros full m q y z H. induction H; try (vm_compute; tauto); eauto. }
  intros H. inversion H; subst; try (vm_compute; tauto); eauto.
Qed.


Section Pass_proofs.
  Variables g p : pool.
  Hypothesis R : ready g p.
  Variable raw : raw_options.
  Hypothesis Hraw : raw_ok raw.

  Lemma own_view own : own = true -> forall i x, nth_error (p_exts p) i = Some x ->
    In (ext_view (options_tables g p own) x) (msg_exts (options_tables g p own) (x_extendee x)).
  Proof. intros ->. exact (rd_own _ _ R). Qed.

  Definition good_place (pl : place) : Prop :=
    let '(file, path, ty, s) := pl in In ty option_types /\ (file < length (p_files p))%nat.
  Definition unresolved (pl : place) (w : option spot) : Prop :=
    let '(file, path, ty, s) := pl in
    exists encoded us, raw file path = Some (encoded, us) /\ misfit g p file path ty s encoded us w /\ forall m b ls, ~ resolved g p file path ty s encoded us m b ls.
  (** the place [pl] gives this entry *)
  Definition written (pl : place) (w : nat * list Z * str * bytes) (ls : list (nat * list Z * list Z)) : Prop :=
    let '(file, path, ty, s) := pl in
    exists encoded us m b mv, raw file path = Some (encoded, us) /\ resolved g p file path ty s encoded us m b mv /\
      w = (file, path, ty, b) /\ ls = map (fun l => (file, fst l, snd l)) mv.

  Lemma place_step pl es os ls : good_place pl ->
    (let '(file, path, ty, s) := pl in raw file path = None) /\ opt_place g p raw (es, os, ls) pl = Ok (es, os, ls) \/
    (exists w l, opt_place g p raw (es, os, ls) pl = Ok (es, os ++ [w], ls ++ l) /\ written pl w l) \/
    (exists e w l, opt_place g p raw (es, os, ls) pl = Ok (es ++ e, os ++ [w], ls ++ l) /\ exists x r, e = x :: r /\ unresolved pl (snd x)).
  Proof.
    destruct pl as [[[file path] ty] s]. intros [Ty Fl]. unfold opt_place.
    destruct (raw file path) as [[encoded us]|] eqn:Er; [|left; auto]. right.
    pose proof (rd_types _ _ R ty Ty) as T. destruct (options_message g p ty) as [[own d]|] eqn:Em; [|contradiction].
    destruct (rd_sane _ _ R own) as [Hw Hs]. destruct (text_sane _ (proj1 Hw) Hs) as (Hx & Hany & _).
    destruct (Hraw _ _ _ _ Er) as (Hb & Ho & Hn). destruct (nth_error (p_files p) file) as [fi|] eqn:Ef; [|apply nth_error_None in Ef; lia].
    destruct (resolve_one_spec p _ own s file Hw Hany Hx fi Ef (rd_defs _ _ R) (own_view own) d path encoded us
                (rd_msg _ _ R _ _ _ Em) Hb Ho Hn) as (b & e & l & -> & [(-> & m0 & m1 & paths & Hd & Hi & Hok & Hdd & He & ->)|(He & N)]); cbn [rbind map].
    - left. do 2 eexists. rewrite app_nil_r. split; [reflexivity|]. do 5 eexists. split; [exact Er|]. split; [|split; reflexivity].
      exists own, d, m0, m1, paths. split; [exact Em|]. cbv zeta. split; [exact Hd|]. split; [exact Hi|]. split; [reflexivity|]. split; [exact He|reflexivity].
    - right. do 3 eexists. split; [reflexivity|].
      assert (exists x r, e = x :: r /\ misfit g p file path ty s encoded us (option_map (fun q => (file, q)) (snd x))) as (x & r & -> & M).
      { destruct He as [(x & -> & Nd)|(x & r & m & before & o & after & m1 & paths & -> & Hd & Eu & Hi & Hno)].
        - exists (x, None), []. split; [reflexivity|]. eapply mf_bytes; [exact Em|exact Nd].
        - eexists _, r. split; [reflexivity|]. cbn [snd option_map]. eapply mf_option; eassumption. }
      cbn [map]. do 2 eexists. split; [reflexivity|]. exists encoded, us. split; [exact Er|]. split; [exact M|].
      intros m b0 ls0 (own' & d' & m0 & m1 & paths & E' & Hd & Hi & _). rewrite Em in E'. injection E' as <- <-. exact (N _ _ _ Hd Hi).
  Qed.

  Lemma places_fold pls : Forall good_place pls -> forall es os ls,
    exists es' os' ls', fold_res (fun pl c => opt_place g p raw c pl) pls (es, os, ls) = Ok (es ++ es', os ++ os', ls ++ ls') /\
      (forall x r, es' = x :: r -> exists pl, In pl pls /\ unresolved pl (snd x)) /\
      (es' = [] ->
        (forall pl, In pl pls -> (let '(file, path, ty, s) := pl in raw file path = None) \/
           exists w l, written pl w l /\ In w os' /\ incl l ls') /\
        (forall w, In w os' -> exists pl l, In pl pls /\ written pl w l) /\
        (forall x, In x ls' -> exists pl w l, In pl pls /\ written pl w l /\ In x l)).
  Proof.
    induction 1 as [|pl pls Hg F IH]; intros es os ls; cbn [fold_res].
    - exists [], [], []. rewrite !app_nil_r. split; [reflexivity|]. split; [discriminate|]. intros _. repeat split; intros ? [].
    - destruct (place_step pl es os ls Hg) as [[Hn ->]|[(w & l & -> & W)|(e & w & l & -> & x0 & r0 & -> & U)]]; cbn [rbind].
      + destruct (IH es os ls) as (es' & os' & ls' & -> & A & B). exists es', os', ls'. split; [reflexivity|]. split.
        * intros x r H. destruct (A x r H) as (q & Hq & U). exists q. split; [right; exact Hq|exact U].
        * intros H. destruct (B H) as (B1 & B2 & B3). split; [|split].
          -- intros q [<-|Hq]; [left; exact Hn|auto].
          -- intros w Hw. destruct (B2 w Hw) as (q & l & Hq & W). exists q, l. split; [right; exact Hq|exact W].
          -- intros x Hx. destruct (B3 x Hx) as (q & w & l & Hq & W). exists q, w, l. split; [right; exact Hq|exact W].
      + destruct (IH es (os ++ [w]) (ls ++ l)) as (es' & os' & ls' & -> & A & B). exists es', (w :: os'), (l ++ ls').
        rewrite <- !app_assoc. split; [reflexivity|]. split.
        * intros x r H. destruct (A x r H) as (q & Hq & U). exists q. split; [right; exact Hq|exact U].
        * intros H. destruct (B H) as (B1 & B2 & B3). split; [|split].
          -- intros q [<-|Hq].
             ++ right. exists w, l. split; [exact W|]. split; [left; reflexivity|]. apply incl_appl, incl_refl.
             ++ destruct (B1 q Hq) as [N|(w' & l' & W' & I1 & I2)]; [left; exact N|right]. exists w', l'. split; [exact W'|]. split; [right; exact I1|].
                apply incl_appr. exact I2.
          -- intros w' [<-|Hw]; [exists pl, l; split; [left; reflexivity|exact W]|]. destruct (B2 w' Hw) as (q & l' & Hq & W').
             exists q, l'. split; [right; exact Hq|exact W'].
          -- intros x Hx. apply in_app_iff in Hx. destruct Hx as [Hx|Hx]; [exists pl, w, l; split; [left; reflexivity|split; assumption]|].
             destruct (B3 x Hx) as (q & w' & l' & Hq & W'). exists q, w', l'. split; [right; exact Hq|exact W'].
      + destruct (IH (es ++ x0 :: r0) (os ++ [w]) (ls ++ l)) as (es' & os' & ls' & -> & A & B). exists ((x0 :: r0) ++ es'), (w :: os'), (l ++ ls').
        rewrite <- !app_assoc. split; [reflexivity|]. split.
        * intros x r H. injection H as <- _. exists pl. split; [left; reflexivity|exact U].
        * discriminate.
  Qed.

  Lemma resolved_fun file path ty s encoded us m b l m' b' l' : (file < length (p_files p))%nat -> bytes_ok encoded -> Forall uoption_ok us ->
    resolved g p file path ty s encoded us m b l -> resolved g p file path ty s encoded us m' b' l' -> m = m' /\ b = b' /\ l = l'.
  Proof.
    intros Fl Hb Ho (own & d & m0 & m1 & paths & E & D & I & M & B & L) (own' & d' & m0' & m1' & paths' & E' & D' & I' & M' & B' & L').
    rewrite E in E'. injection E' as <- <-. rewrite D in D'. injection D' as <-.
    destruct (rd_sane _ _ R own) as [Hw Hs]. destruct (text_sane _ (proj1 Hw) Hs) as (Hx & Hany & _).
    destruct (nth_error (p_files p) file) as [fi|] eqn:Ef; [|apply nth_error_None in Ef; lia].
    pose proof (Prop_Decode.C04_decode_total _ d encoded Hw (rd_msg _ _ R _ _ _ E) Hb) as T. rewrite D in T. destruct T as [Hm _]. apply ok_msg_iff in Hm.
    destruct (interpreted_fun p _ own s file Hw Hany Hx fi Ef (rd_defs _ _ R) (own_view own) us _ _ _ _ _ Ho Hm I I') as [<- <-].
    subst m m'. split; [reflexivity|]. split; [congruence|congruence].
  Qed.

  Variable typed : str -> bytes -> bool.
  Lemma write_fold os : forall r,
    (forall f q ty b ty' b', In (f, q, ty, b) os -> In (f, q, ty', b') os -> b = b') ->
    (exists r', fold_res (fun w r => write_options typed r w) os r = Ok r' /\
       (forall w, In w os -> typed (snd (fst w)) (snd w) = true) /\
       forall f q, (exists ty b, In (f, q, ty, b) os /\ r' f q = Some (b, [])) \/ (forall ty b, ~ In (f, q, ty, b) os) /\ r' f q = r f q) \/
    (fold_res (fun w r => write_options typed r w) os r = Panic /\ exists w, In w os /\ typed (snd (fst w)) (snd w) = false).
  Proof.
    induction os as [|[[[f0 q0] ty0] b0] os IH]; intros r Fn; cbn [fold_res].
    - left. exists r. split; [reflexivity|]. split; [intros ? []|]. intros f q. right. split; [intros ? ? []|reflexivity].
    - unfold write_options at 1 3. destruct (typed ty0 b0) eqn:Et; cbn [rbind].
      2:{ right. split; [reflexivity|]. eexists. split; [left; reflexivity|]. exact Et. }
      match goal with |- context[fold_res _ os ?x] => destruct (IH x) as [(r' & -> & T & S)|(-> & w & Hw & T)] end.
      + intros; eapply Fn; right; eassumption.
      + left. exists r'. split; [reflexivity|]. split.
        * intros w [<-|Hw]; [exact Et|auto].
        * intros f q. destruct (S f q) as [(ty & b & Hin & E)|[N E]].
          -- left. exists ty, b. split; [right; exact Hin|exact E].
          -- destruct (Nat.eqb f f0 && (if list_eq_dec Z.eq_dec q q0 then true else false))%bool eqn:Eq.
             ++ left. apply andb_true_iff in Eq. destruct Eq as [E1 E2]. apply Nat.eqb_eq in E1. destruct (list_eq_dec Z.eq_dec q q0) as [E3|]; [|discriminate].
                subst. exists ty0, b0. split; [left; reflexivity|exact E].
             ++ right. split; [|exact E]. intros ty b [H|H]; [|exact (N _ _ H)]. injection H as <- <- <- <-. rewrite Nat.eqb_refl in Eq.
                destruct (list_eq_dec Z.eq_dec q0 q0) as [E3|E3]; [discriminate|contradiction].
      + right. split; [reflexivity|]. exists w. split; [right; exact Hw|exact T].
  Qed.

End Pass_proofs.

(** where the options of these files stand; [n]: the number of the first file *)
Definition stands (n : nat) (fs : list file) (file : nat) (path : list Z) (ty s : str) : Prop :=
  exists k f, nth_error fs k = Some f /\ file = (n + k)%nat /\ file_options f path ty s.

Lemma stands_fun n fs file path ty s ty' s' : stands n fs file path ty s -> stands n fs file path ty' s' -> ty = ty' /\ s = s'.
Proof.
  intros (k & f & H & -> & P) (k' & f' & H' & E & P'). assert (k = k') by lia. subst k'. rewrite H in H'. injection H' as <-.
  eapply file_options_fun; eassumption.
Qed.

Lemma pass_spec g p typed o fs raw : ready g p -> raw_ok raw -> (of_file o + length fs <= length (p_files p))%nat ->
  match resolve_options g typed p o fs raw with
  | Ok (inl es) => exists e es' file path ty s encoded us, es = e :: es' /\ stands (of_file o) fs file path ty s /\ raw file path = Some (encoded, us) /\
      misfit g p file path ty s encoded us (snd e) /\ forall m b ls, ~ resolved g p file path ty s encoded us m b ls
  | Ok (inr (raw', locs)) =>
      (forall file path ty s encoded us, stands (of_file o) fs file path ty s -> raw file path = Some (encoded, us) ->
         exists m b ls, resolved g p file path ty s encoded us m b ls /\ typed ty b = true /\ raw' file path = Some (b, []) /\
           incl (map (fun l => (file, fst l, snd l)) ls) locs) /\
      (forall file path, (forall ty s, ~ stands (of_file o) fs file path ty s) \/ raw file path = None -> raw' file path = raw file path) /\
      (forall x, In x locs -> exists file path ty s encoded us m b ls, stands (of_file o) fs file path ty s /\ raw file path = Some (encoded, us) /\
         resolved g p file path ty s encoded us m b ls /\ In x (map (fun l => (file, fst l, snd l)) ls))
  | Panic => exists file path ty s encoded us m b ls, stands (of_file o) fs file path ty s /\ raw file path = Some (encoded, us) /\
      resolved g p file path ty s encoded us m b ls /\ typed ty b = false
  | Err _ | Fuel => False
  end.
Proof.
  intros R Hraw Hlen. unfold resolve_options.
  assert (forall file path ty s, In (file, path, ty, s) (flat_map opt_places (visit o fs)) <-> stands (of_file o) fs file path ty s) as St by (apply places_spec).
  assert (forall file path ty s, stands (of_file o) fs file path ty s -> (file < length (p_files p))%nat) as Lt.
  { intros file path ty s (k & f & H & -> & _). assert (k < length fs)%nat by (apply nth_error_Some; congruence). lia. }
  destruct (places_fold g p R raw Hraw (flat_map opt_places (visit o fs))) with (es := @nil (oerr * option spot)) (os := @nil (nat * list Z * str * bytes)) (ls := @nil (nat * list Z * list Z))
    as (es & os & ls & -> & A & B).
  { apply Forall_forall. intros [[[file path] ty] s] Hin. apply St in Hin. split; [|exact (Lt _ _ _ _ Hin)].
    destruct Hin as (k & f & _ & _ & P). eapply options_at_types. exact P. }
  cbn [rbind app]. destruct es as [|e es].
  2:{ destruct (A _ _ eq_refl) as ([[[file path] ty] s] & Hin & encoded & us & Er & M & N).
      exists e, es, file, path, ty, s, encoded, us. split; [reflexivity|]. split; [apply St; exact Hin|]. split; [exact Er|]. split; [exact M|exact N]. }
  clear A. destruct (B eq_refl) as (B1 & B2 & B3). clear B.
  assert (forall f q ty b ty' b', In (f, q, ty, b) os -> In (f, q, ty', b') os -> b = b') as Fn.
  { intros f q ty b ty' b' H H'. destruct (B2 _ H) as ([[[f1 q1] ty1] s1] & l1 & I1 & enc1 & us1 & m1 & b1 & v1 & E1 & R1 & W1 & _).
    destruct (B2 _ H') as ([[[f2 q2] ty2] s2] & l2 & I2 & enc2 & us2 & m2 & b2 & v2 & E2 & R2 & W2 & _).
    injection W1 as -> -> -> ->. injection W2 as <- <- -> ->. apply St in I1. apply St in I2. destruct (stands_fun _ _ _ _ _ _ _ _ I1 I2) as [-> ->].
    rewrite E1 in E2. injection E2 as <- <-. destruct (Hraw _ _ _ _ E1) as (Hb & Ho & _).
    apply (resolved_fun g p R _ _ _ _ _ _ _ _ _ _ _ _ (Lt _ _ _ _ I1) Hb Ho R1 R2). }
  destruct (write_fold typed os raw Fn) as [(r' & -> & T & W)|(-> & w & Hw & T)]; cbn [rbind].
  - split; [|split].
    + intros file path ty s encoded us Hs Er. destruct (B1 _ (proj2 (St _ _ _ _) Hs)) as [N|(w & l & (enc & us' & m & b & mv & Er' & Rs & -> & ->) & Iw & Il)]; [congruence|].
      rewrite Er in Er'. injection Er' as <- <-. exists m, b, mv. split; [exact Rs|]. split; [exact (T _ Iw)|]. split; [|exact Il].
      destruct (W file path) as [(ty' & b' & I' & E)|[N _]]; [|exfalso; exact (N _ _ Iw)]. rewrite E. now rewrite (Fn _ _ _ _ _ _ I' Iw).
    + intros file path H. destruct (W file path) as [(ty & b & Iw & E)|[_ E]]; [|exact E]. exfalso.
      destruct (B2 _ Iw) as ([[[f1 q1] ty1] s1] & l1 & I1 & enc1 & us1 & m1 & b1 & v1 & E1 & R1 & W1 & _). injection W1 as -> -> -> ->.
      apply St in I1. destruct H as [H|H]; [exact (H _ _ I1)|congruence].
    + intros x Hx. destruct (B3 _ Hx) as ([[[f1 q1] ty1] s1] & w & l1 & I1 & (enc1 & us1 & m1 & b1 & v1 & E1 & R1 & W1 & ->) & Hl).
      exists f1, q1, ty1, s1, enc1, us1, m1, b1, v1. split; [apply St; exact I1|]. auto.
  - destruct (B2 _ Hw) as ([[[f1 q1] ty1] s1] & l1 & I1 & enc1 & us1 & m1 & b1 & v1 & E1 & R1 & -> & _).
    exists f1, q1, ty1, s1, enc1, us1, m1, b1, v1. split; [apply St; exact I1|]. auto.
Qed.

(** *** reading back *)
Lemma resolved_ok g p file path ty s encoded us m b ls : ready g p -> (file < length (p_files p))%nat -> bytes_ok encoded -> Forall uoption_ok us ->
  resolved g p file path ty s encoded us m b ls ->
  exists own d, options_message g p ty = Some (own, d) /\ ok_msg (options_tables g p own) m = true /\ dm_desc m = d /\
    enc_msg (options_tables g p own) m = Ok b.
Proof.
  intros R Fl Hb Ho (own & d & m0 & m1 & paths & E & D & I & -> & B & L). exists own, d. split; [exact E|].
  destruct (rd_sane _ _ R own) as [Hw Hs]. destruct (text_sane _ (proj1 Hw) Hs) as (Hx & Hany & _).
  destruct (nth_error (p_files p) file) as [fi|] eqn:Ef; [|apply nth_error_None in Ef; lia].
  pose proof (Prop_Decode.C04_decode_total _ d encoded Hw (rd_msg _ _ R _ _ _ E) Hb) as T. rewrite D in T. destruct T as [Hm Hd]. apply ok_msg_iff in Hm.
  assert (msg_ok (options_tables g p own) m1 /\ dm_desc m1 = d) as [Hm1 Hd1].
  { clear B L D. revert m0 paths I Hm Hd. induction us as [|u us IH]; intros m0 paths I Hm Hd; inversion I as [|? ? ? a ? q ? I1 I2]; subst; [auto|].
    inversion_clear Ho as [|? ? Ou Ous]. assert (uo_name u <> []) as Hne by (intros Ez; rewrite Ez in I1; inversion I1).
    destruct (set_option_spec p _ own s file Hw Hany Hx fi Ef (rd_defs _ _ R) (own_view g p R own) u Ou _ m0 Hne Hm) as (m' & e & r & _ & Hm' & D' & IP).
    apply IP in I1. destruct I1 as (_ & -> & ->). eapply IH; [exact Ous|exact I2|exact Hm'|congruence]. }
  destruct (clear_ok _ m1 999 Hm1) as [Hc Dc]. split; [apply ok_msg_iff; exact Hc|]. split; [congruence|exact B].
Qed.

(** *** locations *)
Lemma strip_spec : forall from path r, strip_prefix from path = Some r <-> path = from ++ r.
Proof.
  induction from as [|a from IH]; intros path r; cbn [strip_prefix app].
  - split; [intros [= ->]; reflexivity|intros ->; reflexivity].
  - destruct path as [|b path]; [split; discriminate|]. destruct (Z.eqb_spec a b) as [<-|N].
    + rewrite IH. split; [intros ->; reflexivity|intros [= ->]; reflexivity].
    + split; [discriminate|]. intros [= -> _]. contradiction.
Qed.
Lemma rename_each ls : forall paths, rename_locations ls paths = map (fun q => fold_left (fun q l => rename_location l q) ls q) paths.
Proof.
  unfold rename_locations. induction ls as [|l ls IH]; intros paths; cbn [fold_left]; [rewrite map_id; reflexivity|].
  rewrite IH, map_map. reflexivity.
Qed.
Lemma rename_none ls : forall q, (forall from to r, In (from, to) ls -> q <> from ++ r) -> fold_left (fun q l => rename_location l q) ls q = q.
Proof.
  induction ls as [|[from to] ls IH]; intros q H; cbn [fold_left]; [reflexivity|].
  unfold rename_location at 2. cbn [fst snd]. destruct (strip_prefix from q) as [r|] eqn:E.
  - apply strip_spec in E. exfalso. apply (H from to r (or_introl eq_refl)). exact E.
  - apply IH. intros f t r Hin. apply (H f t r). right. exact Hin.
Qed.
Lemma rename_one ls from to rest :
  (forall f t r, In (f, t) ls -> to ++ rest <> f ++ r) ->
  (forall f t r, In (f, t) ls -> from ++ rest = f ++ r -> f = from /\ t = to) ->
  In (from, to) ls -> fold_left (fun q l => rename_location l q) ls (from ++ rest) = to ++ rest.
Proof.
  induction ls as [|[f t] ls IH]; intros H1 H2 Hin; [destruct Hin|]. cbn [fold_left]. unfold rename_location at 2. cbn [fst snd].
  destruct (strip_prefix f (from ++ rest)) as [r|] eqn:E.
  - apply strip_spec in E. destruct (H2 f t r (or_introl eq_refl) E) as [-> ->]. apply app_inv_head in E. subst r.
    apply rename_none. intros f' t' r' Hi. apply (H1 f' t' r'). right. exact Hi.
  - destruct Hin as [[= -> ->]|Hin]; [exfalso; rewrite (proj2 (strip_spec from (from ++ rest) rest) eq_refl) in E; discriminate|].
    apply IH; [intros f' t' r' Hi; apply (H1 f' t' r'); right; exact Hi|intros f' t' r' Hi; apply (H2 f' t' r'); right; exact Hi|exact Hin].
Qed.

Lemma enum_prefix scope e P r ty s ty' s' : enum_options scope e P ty s -> enum_options scope e (P ++ r) ty' s' -> r = [].
Proof. intros H H'. inversion H; subst; inversion H'; subst; reflexivity. Qed.
Lemma message_prefix full m P ty s : message_options full m P ty s -> forall r ty' s', message_options full m (P ++ r) ty' s' -> r = [].
Proof.
  induction 1; intros r' ty' s' H'; inversion H'; subst; same_item; try reflexivity; eauto using enum_prefix.
Qed.
Lemma file_prefix f P r ty s ty' s' : file_options f P ty s -> file_options f (P ++ r) ty' s' -> r = [].
Proof.
  intros H H'. inversion H; subst; inversion H'; subst; same_item; try reflexivity; eauto using message_prefix, enum_prefix.
Qed.
