(** Field mask strings: proofs for C43. *)
From Coq Require Import String.
From Verif Require Import Base BaseProofs Wire Value Descr Float TextFormat Json.
Open Scope list_scope.
Open Scope N_scope.

(** ** Specification *)

(** the components of a path: [parts] joined by dots is [p], and no component
    has a dot *)
Definition dotted (p : str) (parts : list str) : Prop :=
  parts <> [] /\ p = join_with 46 parts /\ Forall (fun c => ~ In 46 c) parts.
(** a path that a field mask string can hold: not empty, no comma, no component
    that ends with an underscore *)
Definition mask_path_fits (p : str) : Prop :=
  p <> [] /\ ~ In 44 p /\ forall parts c, dotted p parts -> In c parts -> ~ exists r, c = r ++ [95].

(** ** Splitting and joining *)
Lemma split_on_spec sep s : split_on sep s <> [] /\ join_with sep (split_on sep s) = s /\
  Forall (fun c => ~ In sep c) (split_on sep s).
Proof.
  induction s as [|c s [Hne [Hj Hf]]]; cbn.
  - repeat split; [discriminate|constructor; [tauto|constructor]].
  - destruct (N.eqb_spec c sep) as [->|Hc].
    + repeat split; [discriminate| |constructor; [tauto|exact Hf]].
      cbn. destruct (split_on sep s) as [|a l]; [congruence|]. now rewrite Hj.
    + destruct (split_on sep s) as [|a l]; [congruence|].
      repeat split; [discriminate| |].
      * destruct l; cbn in *; now rewrite <- Hj.
      * inversion Hf; subst. constructor; [|assumption]. intros [E|H]; [congruence|auto].
Qed.
Lemma split_on_app sep a s : ~ In sep a -> split_on sep (a ++ sep :: s) = a :: split_on sep s.
Proof.
  induction a as [|c a IH]; cbn; intros H.
  - now rewrite N.eqb_refl.
  - destruct (N.eqb_spec c sep) as [->|_]; [exfalso; apply H; now left|].
    rewrite IH; auto.
Qed.
Lemma split_on_one sep a : ~ In sep a -> split_on sep a = [a].
Proof.
  induction a as [|c a IH]; cbn; intros H; [reflexivity|].
  destruct (N.eqb_spec c sep) as [->|_]; [exfalso; apply H; now left|].
  rewrite IH; auto.
Qed.
Lemma split_join sep l : l <> [] -> Forall (fun c => ~ In sep c) l -> split_on sep (join_with sep l) = l.
Proof.
  induction l as [|a l IH]; [congruence|]. intros _ H. inversion H; subst.
  destruct l as [|b l]; [now apply split_on_one|].
  change (join_with sep (a :: b :: l)) with (a ++ sep :: join_with sep (b :: l)).
  rewrite split_on_app by assumption. rewrite IH by (assumption || discriminate). reflexivity.
Qed.
Lemma dotted_split p parts : dotted p parts <-> parts = split_on 46 p.
Proof.
  split.
  - intros (Hn & -> & Hf). now rewrite split_join.
  - intros ->. destruct (split_on_spec 46 p) as (A & B & C). repeat split; auto.
Qed.

Lemma opt_list_map {A B} (f : A -> option B) l r : opt_list (map f l) = Some r <-> Forall2 (fun a b => f a = Some b) l r.
Proof.
  revert r. induction l as [|a l IH]; cbn; intros r.
  - split; [intros [= <-]; constructor|inversion 1; reflexivity].
  - split.
    + destruct (f a) eqn:E; [|discriminate]. destruct (opt_list (map f l)) eqn:E2; [|discriminate].
      intros [= <-]. constructor; [assumption|]. now apply IH.
    + inversion 1; subst. rewrite H2. apply IH in H4. now rewrite H4.
Qed.

(** ** One component *)
Lemma lower_upper c : (97 <=? c) && (c <=? 122) = true -> is_upper (c - 32) = true /\ ascii_lower (c - 32) = c.
Proof.
  unfold is_upper, ascii_lower. intros H. apply andb_prop in H. destruct H as [A B].
  apply N.leb_le in A. apply N.leb_le in B.
  replace ((65 <=? c - 32) && (c - 32 <=? 90)) with true; [split; [reflexivity|lia]|].
  symmetry. apply andb_true_intro. split; apply N.leb_le; lia.
Qed.
Lemma snake_up_back s x : snake_to_camel true s = Some x -> s <> [] ->
  exists c r y, s = c :: r /\ (97 <=? c) && (c <=? 122) = true /\ snake_to_camel false r = Some y /\ x = (c - 32) :: y.
Proof.
  destruct s as [|c r]; [congruence|]. cbn. intros H _.
  destruct (is_upper c); [discriminate|]. unfold ascii_upper in H.
  destruct ((97 <=? c) && (c <=? 122)) eqn:E; [|rewrite N.eqb_refl in H; discriminate].
  destruct (c - 32 =? c) eqn:E2; [discriminate|].
  destruct (snake_to_camel false r) eqn:E3; [|discriminate]. injection H as <-. eauto 9.
Qed.
Lemma snake_back n : forall s x, (length s <= n)%nat -> snake_to_camel false s = Some x -> ~ (exists r, s = r ++ [95]) ->
  camel_to_snake x = Some s.
Proof.
  induction n as [|n IH]; intros s x Hl H Hu.
  - destruct s; [|cbn in Hl; lia]. injection H as <-. reflexivity.
  - destruct s as [|c s]; [injection H as <-; reflexivity|].
    cbn in H. destruct (is_upper c) eqn:Ec; [discriminate|].
    destruct (N.eqb_spec c 95) as [->|Hc].
    + apply snake_up_back in H; [|intros ->; apply Hu; now exists []].
      destruct H as (c & r & y & -> & Hr & Hy & ->).
      destruct (lower_upper c Hr) as [A B].
      cbn [camel_to_snake]. rewrite A, B.
      rewrite (IH r y); [reflexivity|cbn in Hl; lia|assumption|].
      intros [q ->]. apply Hu. now exists (95 :: c :: q).
    + destruct (snake_to_camel false s) as [y|] eqn:E; [|discriminate]. injection H as <-.
      cbn [camel_to_snake]. rewrite Ec. destruct (N.eqb_spec c 95); [contradiction|].
      rewrite (IH s y); [reflexivity|cbn in Hl; lia|assumption|].
      intros [q ->]. apply Hu. now exists (c :: q).
Qed.
(** characters other than dots and commas make no dots and commas *)
Lemma snake_other sep n : (sep = 44 \/ sep = 46) -> forall s up x, (length s <= n)%nat -> snake_to_camel up s = Some x ->
  ~ In sep s -> ~ In sep x.
Proof.
  intros Hs. induction n as [|n IH]; intros s up x Hl H Hi.
  - destruct s; [|cbn in Hl; lia]. injection H as <-. tauto.
  - destruct s as [|c s]; [injection H as <-; tauto|].
    cbn in H. destruct (is_upper c) eqn:Ec; [discriminate|].
    assert (Hi' : ~ In sep s) by (intros Q; apply Hi; now right).
    assert (Hc : c <> sep) by (intros ->; apply Hi; now left).
    destruct up.
    + unfold ascii_upper in H. destruct ((97 <=? c) && (c <=? 122)) eqn:E; [|rewrite N.eqb_refl in H; discriminate].
      destruct (c - 32 =? c); [discriminate|].
      destruct (snake_to_camel false s) as [y|] eqn:E3; [|discriminate]. injection H as <-.
      apply andb_prop in E. destruct E as [A B]. apply N.leb_le in A. apply N.leb_le in B.
      intros [Q|Q]; [destruct Hs; lia|]. eapply IH; [| |exact Hi'|exact Q]; [cbn in Hl; lia|eassumption].
    + destruct (c =? 95) eqn:E.
      * eapply IH; [|exact H|exact Hi']. cbn in Hl; lia.
      * destruct (snake_to_camel false s) as [y|] eqn:E3; [|discriminate]. injection H as <-.
        intros [Q|Q]; [congruence|]. eapply IH; [| |exact Hi'|exact Q]; [cbn in Hl; lia|eassumption].
Qed.
Lemma snake_nonempty n : forall s x, (length s <= n)%nat -> snake_to_camel false s = Some x -> ~ (exists r, s = r ++ [95]) ->
  x = [] -> s = [].
Proof.
  intros s x Hl H Hu ->. apply (snake_back (length s)) in H; [|lia|assumption]. cbn in H. congruence.
Qed.
Lemma camel_no_under s x : camel_to_snake s = Some x -> ~ exists r, x = r ++ [95].
Proof.
  revert x. induction s as [|c s IH]; cbn; intros x H.
  - injection H as <-. intros [[|? ?] Q]; discriminate.
  - destruct (is_upper c) eqn:Ec.
    + destruct (camel_to_snake s) as [y|]; [|discriminate]. injection H as <-.
      intros [r Q]. destruct r as [|a [|b r]]; cbn in Q; try discriminate Q.
      * injection Q as _ Hb _. unfold ascii_lower in Hb. unfold is_upper in Ec. rewrite Ec in Hb.
        apply andb_prop in Ec. destruct Ec as [A B]. apply N.leb_le in A. apply N.leb_le in B. clear -A B Hb. lia.
      * injection Q as _ _ Hy. apply (IH y eq_refl). eauto.
    + destruct (N.eqb_spec c 95) as [->|Hc]; [discriminate|].
      destruct (camel_to_snake s) as [y|]; [|discriminate]. injection H as <-.
      intros [r Q]. destruct r as [|a r]; cbn in Q.
      * injection Q as Q1 Q2. contradiction.
      * injection Q as _ Hy. apply (IH y eq_refl). eauto.
Qed.
Lemma camel_other sep s x : (sep = 44 \/ sep = 46) -> camel_to_snake s = Some x -> ~ In sep s -> ~ In sep x.
Proof.
  intros Hs. revert x. induction s as [|c s IH]; cbn; intros x H Hi.
  - injection H as <-. tauto.
  - destruct (is_upper c) eqn:Ec.
    + destruct (camel_to_snake s) as [y|]; [|discriminate]. injection H as <-.
      unfold ascii_lower. unfold is_upper in Ec. rewrite Ec.
      apply andb_prop in Ec. destruct Ec as [A B]. apply N.leb_le in A. apply N.leb_le in B.
      intros [Q|[Q|Q]]; [destruct Hs; lia|destruct Hs; lia|]. apply (IH y eq_refl); auto.
    + destruct (c =? 95); [discriminate|]. destruct (camel_to_snake s) as [y|]; [|discriminate]. injection H as <-.
      intros [Q|Q]; [apply Hi; now left|]. apply (IH y eq_refl); auto.
Qed.
Lemma camel_empty s x : camel_to_snake s = Some x -> x = [] -> s = [].
Proof.
  destruct s as [|c s]; [reflexivity|]. cbn.
  destruct (is_upper c); [|destruct (c =? 95); [discriminate|]]; destruct (camel_to_snake s); cbn; congruence.
Qed.

(** ** One path *)
Lemma Forall2_impl {A B} (P Q : A -> B -> Prop) l r : (forall a b, P a b -> Q a b) -> Forall2 P l r -> Forall2 Q l r.
Proof. induction 2; constructor; auto. Qed.
Lemma Forall2_flip {A B} (P : A -> B -> Prop) l r : Forall2 P l r -> Forall2 (fun b a => P a b) r l.
Proof. induction 1; constructor; auto. Qed.
Lemma Forall2_in {A B} (P : A -> B -> Prop) l r : Forall2 P l r -> Forall2 (fun a b => In a l /\ P a b) l r.
Proof.
  intros H. induction H; constructor; [split; [now left|assumption]|].
  eapply Forall2_impl; [|exact IHForall2]. intros a b [Q W]. split; [now right|assumption].
Qed.
Lemma Forall2_right {A B} (P : A -> B -> Prop) (Q : B -> Prop) l r : Forall2 P l r -> (forall a b, In a l -> P a b -> Q b) -> Forall Q r.
Proof.
  intros H. induction H; intros W; constructor; [eapply W; [now left|eassumption]|].
  apply IHForall2. intros. eapply W; [right|]; eassumption.
Qed.
Lemma join_sep sep sep' l : sep <> sep' -> (In sep (join_with sep' l) <-> exists a, In a l /\ In sep a).
Proof.
  intros Hs. induction l as [|a l IH]; cbn.
  - split; [tauto|intros [? [[] _]]].
  - destruct l as [|b l].
    + split; [intros; exists a; auto|intros [x [[->|[]] Q]]; exact Q].
    + split.
      * intros Q. apply in_app_or in Q. destruct Q as [Q|[Q|Q]]; [exists a; auto|congruence|].
        apply IH in Q. destruct Q as [x [Q W]]. exists x. auto.
      * intros [x [[->|Q] W]]; apply in_or_app; [now left|]. right; right. apply IH. eauto.
Qed.
Lemma mask_path_back p x : mask_path_out p = Some x -> mask_path_fits p ->
  mask_path_in x = Some p /\ x <> [] /\ ~ In 44 x.
Proof.
  unfold mask_path_out, mask_path_in. intros H (Hne & Hcomma & Hu).
  destruct (opt_list (map (snake_to_camel false) (split_on 46 p))) as [xs|] eqn:E; [|discriminate].
  injection H as <-. apply opt_list_map in E.
  destruct (split_on_spec 46 p) as (Sn & Sj & Sf).
  assert (Hxs : Forall (fun c => ~ In 46 c) xs).
  { eapply Forall2_right; [exact E|]. intros a b Ha Hb. rewrite Forall_forall in Sf.
    eapply (snake_other 46 (length a)); [now right|apply Nat.le_refl|exact Hb|now apply Sf]. }
  assert (Hu' : forall c, In c (split_on 46 p) -> ~ exists r, c = r ++ [95]).
  { intros c Hc. eapply Hu; [apply dotted_split; reflexivity|exact Hc]. }
  assert (Hc' : forall c, In c (split_on 46 p) -> ~ In 44 c).
  { intros c Hc Q. apply Hcomma. rewrite <- Sj. apply join_sep; [lia|]. eauto. }
  assert (Hxn : xs <> []) by (intros ->; inversion E; congruence).
  split; [|split].
  - rewrite split_join by assumption.
    assert (Q : opt_list (map camel_to_snake xs) = Some (split_on 46 p)).
    { apply opt_list_map. apply Forall2_flip. eapply Forall2_impl; [|apply Forall2_in; exact E].
      cbn. intros a b [Ha Hb]. eapply (snake_back (length a)); [apply Nat.le_refl|exact Hb|now apply Hu']. }
    rewrite Q. cbn. now rewrite Sj.
  - intros Q. destruct xs as [|a [|b xs]]; [congruence| |].
    + cbn in Q. subst a. inversion E as [|y ? ys ? Hy Hys]; subst. inversion Hys; subst.
      rewrite <- H in *. cbn in Sj. subst y. apply Hne.
      eapply (snake_nonempty (length p)); [apply Nat.le_refl|exact Hy| |reflexivity]. apply Hu'. now left.
    + cbn in Q. destruct a; discriminate.
  - rewrite join_sep by lia. intros (a & Ha & Q).
    assert (W : Forall (fun c => ~ In 44 c) xs).
    { eapply Forall2_right; [exact E|]. intros u v Hu1 Hv.
      eapply (snake_other 44 (length u)); [now left|apply Nat.le_refl|exact Hv|now apply Hc']. }
    rewrite Forall_forall in W. exact (W a Ha Q).
Qed.
Lemma mask_path_in_fits q p : mask_path_in q = Some p -> q <> [] -> ~ In 44 q -> mask_path_fits p.
Proof.
  unfold mask_path_in. intros H Hq Hc.
  destruct (opt_list (map camel_to_snake (split_on 46 q))) as [ps|] eqn:E; [|discriminate].
  injection H as <-. apply opt_list_map in E.
  destruct (split_on_spec 46 q) as (Sn & Sj & Sf).
  assert (Hps : Forall (fun c => ~ In 46 c) ps).
  { eapply Forall2_right; [exact E|]. intros a b Ha Hb. rewrite Forall_forall in Sf.
    eapply (camel_other 46); [now right|exact Hb|now apply Sf]. }
  assert (Hpn : ps <> []) by (intros ->; inversion E; congruence).
  split; [|split].
  - intros Q. destruct ps as [|a [|b ps]]; [congruence| |].
    + cbn in Q. subst a. inversion E as [|y ? ys ? Hy Hys]; subst. inversion Hys; subst.
      rewrite <- H in *. cbn in Sj. subst y. apply Hq. eapply camel_empty; [exact Hy|reflexivity].
    + cbn in Q. destruct a; discriminate.
  - rewrite join_sep by lia. intros (a & Ha & Q).
    assert (W : Forall (fun c => ~ In 44 c) ps).
    { eapply Forall2_right; [exact E|]. intros u v Hu1 Hv. eapply (camel_other 44); [now left|exact Hv|].
      intros Q'. apply Hc. rewrite <- Sj. apply join_sep; [lia|]. eauto. }
    rewrite Forall_forall in W. exact (W a Ha Q).
  - intros parts c Hd Hi. apply dotted_split in Hd. rewrite split_join in Hd by assumption. subst parts.
    assert (W : Forall (fun c => ~ exists r, c = r ++ [95]) ps).
    { eapply Forall2_right; [exact E|]. intros u v Hu1 Hv. eapply camel_no_under. exact Hv. }
    rewrite Forall_forall in W. now apply W.
Qed.

(** ** Whole masks *)
Lemma mask_out_join ps : forall acc s, mask_out acc ps = Some s -> Forall mask_path_fits ps ->
  exists xs, Forall2 (fun p x => mask_path_out p = Some x) ps xs /\
    s = match acc with [] => join_with 44 xs | _ => join_with 44 (acc :: xs) end.
Proof.
  induction ps as [|p ps IH]; cbn; intros acc s H Hf.
  - injection H as <-. exists []. split; [constructor|]. destruct acc; reflexivity.
  - inversion Hf as [|? ? Hp Hps]; subst. destruct (mask_path_out p) as [x|] eqn:E; [|discriminate].
    destruct (mask_path_back _ _ E Hp) as (_ & Hx & _).
    apply IH in H; [|assumption]. destruct H as (xs & HF & ->). exists (x :: xs).
    split; [now constructor|].
    destruct acc as [|a acc].
    + cbn [app]. destruct x as [|x0 x]; [congruence|]. reflexivity.
    + cbn. destruct xs; [reflexivity|]. cbn. now rewrite <- !app_assoc.
Qed.
Lemma mask_back ps s : mask_out [] ps = Some s -> Forall mask_path_fits ps -> mask_in s = Some ps.
Proof.
  intros H Hf. apply mask_out_join in H; [|assumption]. destruct H as (xs & HF & ->).
  assert (Hx : Forall2 (fun x p => mask_path_in x = Some p) xs ps /\ Forall (fun x => x <> [] /\ ~ In 44 x) xs).
  { clear -HF Hf. induction HF; [split; constructor|]. inversion Hf; subst.
    destruct (mask_path_back _ _ H H2) as (A & B & C). destruct (IHHF H3). split; constructor; auto. }
  destruct Hx as [HF' Hn]. unfold mask_in.
  destruct xs as [|x xs]; [inversion HF'; reflexivity|].
  rewrite split_join; [|discriminate|eapply Forall_impl; [|exact Hn]; cbn; tauto].
  assert (Q : filter (fun p : list N => match p with [] => false | _ => true end) (x :: xs) = x :: xs).
  { clear -Hn. induction Hn as [|a l [Ha _] _ IH]; [reflexivity|]. cbn. destruct a; [congruence|]. now rewrite IH. }
  rewrite Q. now apply opt_list_map.
Qed.
Lemma mask_in_fits s ps : mask_in s = Some ps -> Forall mask_path_fits ps.
Proof.
  unfold mask_in. intros H. apply opt_list_map in H.
  eapply Forall2_right; [exact H|]. intros a b Ha Hb. apply filter_In in Ha. destruct Ha as [Ha Hn].
  eapply mask_path_in_fits; [exact Hb|intros ->; discriminate|].
  destruct (split_on_spec 44 s) as (_ & _ & Sf). rewrite Forall_forall in Sf. now apply Sf.
Qed.
