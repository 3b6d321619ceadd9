(** Lemmas about the common vocabulary. *)
From Verif Require Import Base.

Lemma bytes_eqb_refl a : bytes_eqb a a = true.
Proof. induction a as [|x a IH]; cbn; [reflexivity|]. rewrite N.eqb_refl; exact IH. Qed.

Lemma bytes_eqb_eq a b : bytes_eqb a b = true <-> a = b.
Proof.
  split.
  - revert b; induction a as [|x a IH]; intros [|y b]; cbn; try congruence.
    intros H; apply andb_true_iff in H; destruct H as [H1 H2].
    apply N.eqb_eq in H1; apply IH in H2; congruence.
  - intros ->; apply bytes_eqb_refl.
Qed.

Lemma bytes_eqb_neq a b : bytes_eqb a b = false <-> a <> b.
Proof.
  split.
  - intros H E; apply bytes_eqb_eq in E; congruence.
  - intros H; destruct (bytes_eqb a b) eqn:E; [|reflexivity].
    apply bytes_eqb_eq in E; contradiction.
Qed.

Lemma bytes_ok_app a b : bytes_ok (a ++ b) <-> bytes_ok a /\ bytes_ok b.
Proof. unfold bytes_ok; apply Forall_app. Qed.

Lemma bytes_okb_ok a : bytes_okb a = true <-> bytes_ok a.
Proof.
  unfold bytes_okb, bytes_ok; rewrite forallb_forall, Forall_forall.
  split; intros H x Hx; specialize (H x Hx); lia.
Qed.

(** ** Sorted association lists *)

Lemma bt_get_set_same {A} k (v : A) l : bt_get k (bt_set k v l) = Some v.
Proof.
  induction l as [|[k' v'] l IH]; cbn.
  - now rewrite N.eqb_refl.
  - destruct (k <? k') eqn:E1; cbn; [now rewrite N.eqb_refl|].
    destruct (k =? k') eqn:E2; cbn; [now rewrite N.eqb_refl|].
    now rewrite E2.
Qed.

Lemma bt_get_set_other {A} k k' (v : A) l :
  k <> k' -> bt_get k (bt_set k' v l) = bt_get k l.
Proof.
  intros Hne; induction l as [|[k0 v0] l IH]; cbn.
  - destruct (k =? k') eqn:E; [apply N.eqb_eq in E; contradiction|reflexivity].
  - destruct (k' <? k0) eqn:E1; cbn.
    + destruct (k =? k') eqn:E; [apply N.eqb_eq in E; contradiction|reflexivity].
    + destruct (k' =? k0) eqn:E2; cbn.
      * apply N.eqb_eq in E2; subst k0.
        destruct (k =? k') eqn:E; [apply N.eqb_eq in E; contradiction|reflexivity].
      * destruct (k =? k0); [reflexivity|exact IH].
Qed.

Lemma bt_get_remove_same {A} k (l : list (N * A)) : bt_get k (bt_remove k l) = None.
Proof.
  unfold bt_remove; induction l as [|[k' v'] l IH]; cbn; [reflexivity|].
  destruct (k =? k') eqn:E; cbn; [exact IH|]. now rewrite E.
Qed.

Lemma bt_get_remove_other {A} k k' (l : list (N * A)) :
  k <> k' -> bt_get k (bt_remove k' l) = bt_get k l.
Proof.
  intros Hne; unfold bt_remove; induction l as [|[k0 v0] l IH]; cbn; [reflexivity|].
  destruct (k' =? k0) eqn:E; cbn.
  - apply N.eqb_eq in E; subst k0.
    destruct (k =? k') eqn:E2; [apply N.eqb_eq in E2; contradiction|exact IH].
  - destruct (k =? k0); [reflexivity|exact IH].
Qed.

Lemma bt_get_In {A} k (v : A) l : bt_get k l = Some v -> In (k, v) l.
Proof.
  induction l as [|[k' v'] l IH]; cbn; [discriminate|].
  destruct (k =? k') eqn:E.
  - intros H; injection H as ->; apply N.eqb_eq in E; subst; now left.
  - intros H; right; auto.
Qed.

Lemma bt_sorted_nodup {A} (l : list (N * A)) : bt_sorted l -> NoDup (map fst l).
Proof.
  induction l as [|[k v] l IH]; cbn; intros H; constructor.
  - destruct H as [H _]; intros Hin; apply in_map_iff in Hin.
    destruct Hin as [[k' v'] [Hk Hin]]; cbn in Hk; subst k'.
    rewrite Forall_forall in H; specialize (H _ Hin); cbn in H; lia.
  - apply IH; tauto.
Qed.

Lemma bt_In_get {A} k (v : A) l : bt_sorted l -> In (k, v) l -> bt_get k l = Some v.
Proof.
  induction l as [|[k' v'] l IH]; cbn; [contradiction|].
  intros [Hf Hs] [H|H].
  - injection H as -> ->; now rewrite N.eqb_refl.
  - rewrite Forall_forall in Hf; specialize (Hf _ H); cbn in Hf.
    destruct (k =? k') eqn:E; [lia|auto].
Qed.

Lemma bt_get_None {A} k (l : list (N * A)) :
  bt_get k l = None <-> ~ In k (map fst l).
Proof.
  induction l as [|[k' v'] l IH]; cbn; [tauto|].
  destruct (k =? k') eqn:E.
  - apply N.eqb_eq in E; subst; split; [discriminate|intros H; exfalso; apply H; now left].
  - apply N.eqb_neq in E; rewrite IH; split; intros H; [intros [H1|H1]; [congruence|tauto]|tauto].
Qed.

Lemma bt_set_keys_bound {A} k (v : A) l b :
  b < k -> Forall (fun kv => b < fst kv) l -> Forall (fun kv => b < fst kv) (bt_set k v l).
Proof.
  intros Hb; induction l as [|[k' v'] l IH]; cbn; intros H.
  - constructor; [exact Hb|constructor].
  - inversion_clear H as [|? ? H1 H2].
    destruct (k <? k'); [constructor; [exact Hb|constructor; assumption]|].
    destruct (k =? k'); constructor; auto.
Qed.

Lemma bt_set_sorted {A} k (v : A) l : bt_sorted l -> bt_sorted (bt_set k v l).
Proof.
  induction l as [|[k' v'] l IH]; cbn; intros H.
  - split; [constructor|exact I].
  - destruct H as [Hf Hs].
    destruct (k <? k') eqn:E1; cbn.
    + split; [|split; assumption].
      constructor; [cbn; lia|].
      eapply Forall_impl; [|exact Hf]; cbn; intros; lia.
    + destruct (k =? k') eqn:E2; cbn.
      * apply N.eqb_eq in E2; subst; split; assumption.
      * split; [|auto]. apply bt_set_keys_bound; [lia|assumption].
Qed.

Lemma Forall_filter {A} (P : A -> Prop) f l : Forall P l -> Forall P (filter f l).
Proof.
  induction l as [|x l IH]; cbn; intros H; [constructor|].
  inversion_clear H. destruct (f x); [constructor|]; auto.
Qed.

Lemma bt_remove_sorted {A} k (l : list (N * A)) : bt_sorted l -> bt_sorted (bt_remove k l).
Proof.
  unfold bt_remove; induction l as [|[k' v'] l IH]; cbn; intros H; [exact I|].
  destruct H as [Hf Hs].
  destruct (k =? k'); cbn; [auto|].
  split; [apply Forall_filter; exact Hf|auto].
Qed.

Lemma bt_set_In {A} k (v : A) l x :
  In x (bt_set k v l) -> x = (k, v) \/ In x l.
Proof.
  induction l as [|[k' v'] l IH]; cbn.
  - intros [H|[]]; auto.
  - destruct (k <? k'); cbn; [intuition|].
    destruct (k =? k'); cbn; intuition.
Qed.

(** Two sorted lists with the same lookups are equal. *)
Lemma bt_ext {A} (l1 l2 : list (N * A)) :
  bt_sorted l1 -> bt_sorted l2 -> (forall k, bt_get k l1 = bt_get k l2) -> l1 = l2.
Proof.
  revert l2; induction l1 as [|[k1 v1] l1 IH]; intros [|[k2 v2] l2] H1 H2 H.
  - reflexivity.
  - specialize (H k2); cbn in H; rewrite N.eqb_refl in H; discriminate.
  - specialize (H k1); cbn in H; rewrite N.eqb_refl in H; discriminate.
  - cbn in H1, H2; destruct H1 as [F1 S1]; destruct H2 as [F2 S2].
    rewrite Forall_forall in F1, F2.
    assert (k1 = k2) as ->.
    { destruct (N.lt_trichotomy k1 k2) as [L|[L|L]]; [|exact L|].
      - pose proof (H k1) as Hk; cbn in Hk; rewrite N.eqb_refl in Hk.
        destruct (k1 =? k2) eqn:E; [lia|].
        symmetry in Hk; apply bt_get_In in Hk; apply F2 in Hk; cbn in Hk; lia.
      - pose proof (H k2) as Hk; cbn in Hk; rewrite N.eqb_refl in Hk.
        destruct (k2 =? k1) eqn:E; [lia|].
        apply bt_get_In in Hk; apply F1 in Hk; cbn in Hk; lia. }
    pose proof (H k2) as Hk; cbn in Hk; rewrite N.eqb_refl in Hk; injection Hk as ->.
    f_equal; apply IH; [assumption..|].
    intros k; specialize (H k); cbn in H.
    destruct (k =? k2) eqn:E; [|exact H].
    apply N.eqb_eq in E; subst.
    transitivity (@None A); [|symmetry]; apply bt_get_None; intros Hin;
      apply in_map_iff in Hin; destruct Hin as [[k' v'] [Hk' Hin]]; cbn in Hk'; subst k'.
    + apply F1 in Hin; cbn in Hin; lia.
    + apply F2 in Hin; cbn in Hin; lia.
Qed.

Lemma bt_set_append {A} k (v : A) l :
  Forall (fun kv => fst kv < k) l -> bt_set k v l = l ++ [(k, v)].
Proof.
  induction l as [|[k' v'] l IH]; cbn; intros H; [reflexivity|].
  inversion_clear H as [|? ? H1 H2]; cbn in H1.
  destruct (k <? k') eqn:E1; [lia|].
  destruct (k =? k') eqn:E2; [lia|].
  f_equal; auto.
Qed.

Lemma rbind_ok {A B} (r : res A) (k : A -> res B) b :
  rbind r k = Ok b -> exists a, r = Ok a /\ k a = Ok b.
Proof. destruct r; cbn; try discriminate; eauto. Qed.

Lemma assoc_s_In {A} k (v : A) l : assoc_s k l = Some v -> In (k, v) l.
Proof.
  induction l as [|[k' v'] l IH]; cbn; [discriminate|].
  destruct (bytes_eqb k k') eqn:E.
  - apply bytes_eqb_eq in E; subst; intros H; injection H as ->; now left.
  - intros H; right; auto.
Qed.
