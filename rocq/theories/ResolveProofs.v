(** Proofs about name resolution. *)
From Verif Require Import Base BaseProofs Descr Proto Build VisitProofs EventProofs BuildFrame BuildNames BuildQuiet BuildResolve BuildInv DeclSpec DeclProofs PoolFacts ResolveSpec.
From Coq Require Import List ZArith NArith Sorted.
Import ListNotations.
Local Open Scope list_scope.
Local Open Scope N_scope.

(** *** the candidate parents are the enclosing scopes, innermost first *)

Lemma before_dots_in pre s x : In x (before_dots pre s) <-> exists t r, s = t ++ dot :: r /\ x = pre ++ t.
Proof.
  revert pre. induction s as [|c s IH]; intros pre; cbn [before_dots].
  - split; [intros []|]. intros [t [r [E _]]]. destruct t; discriminate.
  - rewrite in_app_iff, IH. split.
    + intros [H|[t [r [-> ->]]]].
      * destruct (N.eqb_spec c dot) as [-> |]; [|destruct H]. destruct H as [<- |[]]. exists [], s. rewrite app_nil_r. auto.
      * exists (c :: t), r. rewrite <- app_assoc. auto.
    + intros [[|c' t] [r [E ->]]]; cbn in E; inversion E; subst.
      * left. rewrite N.eqb_refl. left. rewrite app_nil_r. reflexivity.
      * right. exists t, r. rewrite <- app_assoc. auto.
Qed.
Lemma encloses_in sc scope : In sc (candidate_parents scope) <-> encloses sc scope.
Proof.
  unfold candidate_parents, encloses. cbn [In]. rewrite in_app_iff, <- in_rev, before_dots_in. cbn [In app]. split.
  - intros [H|[[t [r [H ->]]]|[H|[]]]]; eauto.
  - intros [H|[[r H]|H]]; eauto. right. left. exists sc, r. auto.
Qed.
Lemma encloses_eq a c scope : encloses a scope -> encloses c scope -> length a = length c -> a = c.
Proof.
  assert (forall a, encloses a scope -> a = firstn (length a) scope) as P.
  { intros x [-> |[[r ->]| ->]]; [symmetry; apply firstn_all| |reflexivity]. rewrite firstn_app, Nat.sub_diag, firstn_all, app_nil_r. reflexivity. }
  intros Ha Hc E. rewrite (P _ Ha), (P _ Hc), E. reflexivity.
Qed.
Definition len_ge (a c : str) : Prop := (length c <= length a)%nat.
Lemma before_dots_sorted s : forall pre, StronglySorted (fun a c => len_ge c a) (before_dots pre s) /\
  (forall x, In x (before_dots pre s) -> (length pre <= length x)%nat).
Proof.
  induction s as [|c s IH]; intros pre; cbn [before_dots].
  - split; [constructor|intros x []].
  - destruct (IH (pre ++ [c])) as [S L].
    assert (forall x, In x (before_dots (pre ++ [c]) s) -> (length pre <= length x)%nat) as L'.
    { intros x Hx. apply L in Hx. rewrite app_length in Hx. lia. }
    destruct (c =? dot); cbn [app].
    + split; [constructor; [exact S|]; apply Forall_forall; intros x Hx; apply L'; exact Hx|].
      intros x [<- |Hx]; [lia|auto].
    + split; [exact S|exact L'].
Qed.
Lemma ss_rev {A} (R : A -> A -> Prop) l : StronglySorted R l -> StronglySorted (fun a c => R c a) (rev l).
Proof.
  induction 1 as [|a l S IH F]; cbn; [constructor|].
  assert (forall l', StronglySorted (fun a c => R c a) l' -> Forall (fun x => R a x) l' -> StronglySorted (fun a c => R c a) (l' ++ [a])) as Q.
  { clear. induction 1 as [|x l S IH F]; intros Fa; cbn; [repeat constructor|]. inversion Fa; subst. constructor; [auto|].
    apply Forall_app. split; [exact F|]. repeat constructor. assumption. }
  apply Q; [exact IH|]. apply Forall_rev. exact F.
Qed.
Lemma candidates_sorted scope : StronglySorted len_ge (candidate_parents scope).
Proof.
  unfold candidate_parents. destruct (before_dots_sorted scope []) as [S L]. apply ss_rev in S.
  assert (forall l, StronglySorted len_ge l -> StronglySorted len_ge (l ++ [[]])) as Q.
  { clear. induction 1 as [|x l S IH F]; cbn; [repeat constructor|]. constructor; [exact IH|]. apply Forall_app. split; [exact F|].
    repeat constructor. unfold len_ge. cbn. lia. }
  constructor; [apply Q; exact S|]. apply Forall_forall. intros x Hx. apply in_app_iff in Hx.
  destruct Hx as [Hx|[<- |[]]]; [|unfold len_ge; cbn; lia]. apply in_rev in Hx. apply before_dots_in in Hx. destruct Hx as [t [r [-> ->]]].
  unfold len_ge. cbn [app]. rewrite app_length. lia.
Qed.
(** the first candidate with a property is the innermost scope with it *)
Lemma first_innermost (P : str -> Prop) scope l1 sc l2 : candidate_parents scope = l1 ++ sc :: l2 -> P sc ->
  (forall x, In x l1 -> ~ P x) ->
  encloses sc scope /\ (forall sc', encloses sc' scope -> inside sc' sc -> ~ P sc').
Proof.
  intros E Hp Hn. split; [apply encloses_in; rewrite E; apply in_app_iff; right; left; reflexivity|].
  intros sc' Hs Hi. apply encloses_in in Hs. rewrite E in Hs. apply in_app_iff in Hs. destruct Hs as [Hs|[<- |Hs]].
  - apply Hn. exact Hs.
  - unfold inside in Hi. lia.
  - exfalso. pose proof (candidates_sorted scope) as S. rewrite E in S. clear - S Hs Hi.
    induction l1 as [|a l1 IH]; cbn in S; inversion S; subst; [|auto]. rewrite Forall_forall in H2. specialize (H2 _ Hs). unfold inside, len_ge in *. lia.
Qed.
Lemma innermost_first (P : str -> Prop) (dec : forall x, P x \/ ~ P x) scope sc : encloses sc scope -> P sc ->
  (forall sc', encloses sc' scope -> inside sc' sc -> ~ P sc') ->
  exists l1 l2, candidate_parents scope = l1 ++ sc :: l2 /\ (forall x, In x l1 -> ~ P x).
Proof.
  intros He Hp Hn.
  assert (forall l, (exists x, In x l /\ P x) -> exists l1 x l2, l = l1 ++ x :: l2 /\ P x /\ forall y, In y l1 -> ~ P y) as FS.
  { clear - dec. induction l as [|a l IH]; intros [x [Hx Px]]; [destruct Hx|]. destruct (dec a) as [Pa|Na].
    - exists [], a, l. split; [reflexivity|]. split; [exact Pa|intros y []].
    - destruct Hx as [-> |Hx]; [contradiction|]. destruct (IH (ex_intro _ x (conj Hx Px))) as [l1 [y [l2 [-> [Py Hy]]]]].
      exists (a :: l1), y, l2. split; [reflexivity|]. split; [exact Py|]. intros z [<- |Hz]; auto. }
  destruct (FS (candidate_parents scope)) as [l1 [x [l2 [E [Px Hx]]]]]; [exists sc; split; [apply encloses_in; exact He|exact Hp]|].
  destruct (first_innermost P _ _ _ _ E Px Hx) as [Ex Mx].
  assert (x = sc) as ->; [|exists l1, l2; auto].
  apply (encloses_eq _ _ scope Ex He). destruct (Nat.lt_trichotomy (length x) (length sc)) as [L|[L|L]]; [|exact L|].
  - exfalso. exact (Mx sc He L Hp).
  - exfalso. exact (Hn x Ex L Px).
Qed.

Lemma join_dotted sc n : join_scope sc n = dotted sc n.
Proof. symmetry. apply dotted_join. Qed.

(** *** the loop *)

Section Loop.
  Context (deps : list nat) (names : list (str * def)) (r : rfilter).
  Let nm n := assoc_s n names.
  Let vis f := In f deps.
  Let fit k := is_match r k = true.

  Lemma lookup_found name n d : lookup_name deps names name r = RFound n d <-> n = name /\ fitting nm vis fit name d.
  Proof.
    unfold lookup_name, fitting, nm, vis, fit. destruct (assoc_s name names) as [d'|]; [|split; [discriminate|intros [_ [E _]]; discriminate]].
    destruct (existsb (Nat.eqb (d_file d')) deps) eqn:V; cbn [negb].
    - apply existsb_exists in V. destruct V as [x [V1 V2]]. apply Nat.eqb_eq in V2. subst x.
      destruct (is_match r (d_kind d')) eqn:M; cbn [negb]; split.
      + intros E. inversion E; subst. auto.
      + intros [-> [E _]]. apply Some_inj in E. subst. reflexivity.
      + discriminate.
      + intros [-> [E [_ M']]]. apply Some_inj in E. subst. congruence.
    - split; [discriminate|]. intros [_ [E [V' _]]]. apply Some_inj in E. subst d'.
      exfalso. rewrite <- not_true_iff_false in V. apply V. apply existsb_exists. exists (d_file d). split; [exact V'|apply Nat.eqb_refl].
  Qed.
  Lemma first_part_simple ref : ~ In dot ref -> first_part ref = ref.
  Proof.
    induction ref as [|c ref IH]; intros H; [reflexivity|]. cbn. destruct (N.eqb_spec c dot) as [-> |]; [exfalso; apply H; left; reflexivity|].
    f_equal. apply IH. intros Hi. apply H. right. exact Hi.
  Qed.
  Lemma first_part_compound a rest : ~ In dot a -> first_part (a ++ dot :: rest) = a.
  Proof.
    induction a as [|c a IH]; intros H; [cbn; rewrite ?N.eqb_refl; reflexivity|]. cbn. destruct (N.eqb_spec c dot) as [-> |]; [exfalso; apply H; left; reflexivity|].
    f_equal. apply IH. intros Hi. apply H. right. exact Hi.
  Qed.
  Lemma ref_cases ref : (~ In dot ref) \/ exists a rest, ref = a ++ dot :: rest /\ ~ In dot a.
  Proof.
    induction ref as [|c ref [IH|[a [rest [-> IH]]]]].
    - left. intros [].
    - destruct (N.eq_dec c dot) as [-> |Hc]; [right; exists [], ref; split; [reflexivity|intros []]|].
      left. intros [E|E]; [congruence|contradiction].
    - destruct (N.eq_dec c dot) as [-> |Hc]; [right; exists [], (a ++ dot :: rest); split; [reflexivity|intros []]|].
      right. exists (c :: a), rest. split; [reflexivity|]. intros [E|E]; [congruence|contradiction].
  Qed.

  Lemma loop_simple ref : ~ In dot ref -> forall l e n d, (forall n' d', e <> RFound n' d') ->
    (resolve_loop deps names r ref l e = RFound n d <->
     exists l1 sc l2, l = l1 ++ sc :: l2 /\ n = dotted sc ref /\ fitting nm vis fit (dotted sc ref) d /\
       forall x, In x l1 -> forall d', ~ fitting nm vis fit (dotted x ref) d').
  Proof.
    intros Hr. induction l as [|p l IH]; intros e n d He; cbn [resolve_loop].
    - split; [intros H; exfalso; exact (He _ _ H)|]. intros [l1 [sc [l2 [E _]]]]. destruct l1; discriminate.
    - rewrite first_part_simple by exact Hr. rewrite Nat.eqb_refl. rewrite join_dotted.
      destruct (lookup_name deps names (dotted p ref) r) as [n' d'| | | |] eqn:L.
      1: { apply lookup_found in L as L'. destruct L' as [-> Fp]. split.
           - intros E. inversion E; subst. exists [], p, l. split; [reflexivity|]. split; [reflexivity|]. split; [exact Fp|intros x []].
           - intros [l1 [sc [l2 [E [-> [F N]]]]]]. destruct l1 as [|x l1]; cbn in E; inversion E; subst.
             + f_equal. destruct Fp as [F1 _], F as [F2 _]. congruence.
             + exfalso. exact (N x (or_introl eq_refl) _ Fp). }
      all: assert (forall d', ~ fitting nm vis fit (dotted p ref) d') as Np by
        (intros d' F; pose proof (proj2 (lookup_found _ (dotted p ref) d') (conj eq_refl F)) as Q; rewrite L in Q; discriminate).
      all: rewrite IH by (destruct e; try discriminate; exact He).
      all: split;
        [intros [l1 [sc [l2 [-> [-> [F N]]]]]]; exists (p :: l1), sc, l2; split; [reflexivity|]; split; [reflexivity|]; split; [exact F|];
         intros x [<- |Hx]; [exact Np|exact (N x Hx)]
        |intros [l1 [sc [l2 [E [-> [F N]]]]]]; destruct l1 as [|x l1]; cbn in E; inversion E; subst;
          [exfalso; exact (Np _ F)|exists l1, sc, l2; split; [reflexivity|]; split; [reflexivity|]; split; [exact F|]; intros x' Hx'; apply N; right; exact Hx']].
  Qed.

  Lemma is_parent_container k : is_parent k = true <-> container k.
  Proof.
    unfold container. destruct k; cbn; split; try discriminate; intros H; eauto 6;
      try (exfalso; destruct H as [H|[[? H]|[[? H]|[? H]]]]; discriminate).
  Qed.
  Lemma loop_compound a rest : ~ In dot a -> forall l e n d, (forall n' d', e <> RFound n' d') ->
    (resolve_loop deps names r (a ++ dot :: rest) l e = RFound n d <->
     exists l1 sc l2 c, l = l1 ++ sc :: l2 /\ nm (dotted sc a) = Some c /\ container (d_kind c) /\
       n = dotted sc (a ++ dot :: rest) /\ fitting nm vis fit (dotted sc (a ++ dot :: rest)) d /\
       forall x, In x l1 -> forall c', nm (dotted x a) = Some c' -> ~ container (d_kind c')).
  Proof.
    intros Hr. induction l as [|p l IH]; intros e n d He; cbn [resolve_loop].
    - split; [intros H; exfalso; exact (He _ _ H)|]. intros [l1 [sc [l2 [c [E _]]]]]. destruct l1; discriminate.
    - rewrite first_part_compound by exact Hr. rewrite (proj2 (Nat.eqb_neq _ _)) by (rewrite app_length; cbn; lia). rewrite !join_dotted.
      assert ((forall c', nm (dotted p a) = Some c' -> ~ container (d_kind c')) ->
        ((exists l1 sc l2 c, l = l1 ++ sc :: l2 /\ nm (dotted sc a) = Some c /\ container (d_kind c) /\
           n = dotted sc (a ++ dot :: rest) /\ fitting nm vis fit (dotted sc (a ++ dot :: rest)) d /\
           forall x, In x l1 -> forall c', nm (dotted x a) = Some c' -> ~ container (d_kind c')) <->
         (exists l1 sc l2 c, p :: l = l1 ++ sc :: l2 /\ nm (dotted sc a) = Some c /\ container (d_kind c) /\
           n = dotted sc (a ++ dot :: rest) /\ fitting nm vis fit (dotted sc (a ++ dot :: rest)) d /\
           forall x, In x l1 -> forall c', nm (dotted x a) = Some c' -> ~ container (d_kind c')))) as Skip.
      { intros Np. split.
        - intros [l1 [sc [l2 [c [-> [H1 [H2 [H3 [H4 H5]]]]]]]]]. exists (p :: l1), sc, l2, c. repeat (split; [assumption || reflexivity|]).
          intros x [<- |Hx]; [exact Np|exact (H5 x Hx)].
        - intros [l1 [sc [l2 [c [E [H1 [H2 [H3 [H4 H5]]]]]]]]]. destruct l1 as [|x l1]; cbn in E; inversion E; subst.
          + exfalso. exact (Np _ H1 H2).
          + exists l1, sc, l2, c. repeat (split; [assumption || reflexivity|]). intros x' Hx'. apply H5. right. exact Hx'. }
      unfold nm in *. destruct (assoc_s (dotted p a) names) as [c|] eqn:C.
      + destruct (is_parent (d_kind c)) eqn:Pc.
        * apply is_parent_container in Pc. clear Skip.
          assert (match lookup_name deps names (dotted p (a ++ dot :: rest)) r with RNotFound => RShadowed (a ++ dot :: rest) (dotted p (a ++ dot :: rest)) | x => x end = RFound n d
                  <-> n = dotted p (a ++ dot :: rest) /\ fitting nm vis fit (dotted p (a ++ dot :: rest)) d) as ->.
          { rewrite <- lookup_found. destruct (lookup_name deps names (dotted p (a ++ dot :: rest)) r); split; intros H; try discriminate; exact H. }
          split.
          -- intros [-> F]. exists [], p, l, c. repeat (split; [assumption || reflexivity|]). intros x [].
          -- intros [l1 [sc [l2 [c' [E [H1 [H2 [H3 [H4 H5]]]]]]]]]. destruct l1 as [|x l1]; cbn in E; inversion E; subst; [auto|].
             exfalso. exact (H5 x (or_introl eq_refl) _ C Pc).
        * rewrite IH by exact He. apply Skip. intros c' Ec Kc. apply Some_inj in Ec. subst c'. apply is_parent_container in Kc. congruence.
      + rewrite IH by exact He. apply Skip. discriminate.
  Qed.

  Lemma fitting_dec n : (exists d, fitting nm vis fit n d) \/ ~ (exists d, fitting nm vis fit n d).
  Proof.
    destruct (lookup_name deps names n r) as [n' d'| | | |] eqn:L.
    1: { left. exists d'. apply lookup_found in L. apply L. }
    all: right; intros [d' F]; pose proof (proj2 (lookup_found n n d') (conj eq_refl F)) as Q; rewrite L in Q; discriminate.
  Qed.

  (** a reference whose first character is no dot has a non-empty first part *)
  Lemma resolve_exact scope ref n d : scope <> [] ->
    (resolve_name deps names scope ref r = RFound n d <-> resolves nm vis fit scope ref n d).
  Proof.
    intros Hs.
    assert (forall ref, (forall x, ref <> dot :: x) -> resolve_name deps names scope ref r = resolve_loop deps names r ref (candidate_parents scope) RNotFound) as RL.
    { intros ref' Hd. destruct scope as [|s0 scope]; [contradiction|]. destruct ref' as [|c ref']; [reflexivity|]. cbn [resolve_name].
      destruct (N.eqb_spec c dot) as [-> |]; [exfalso; exact (Hd _ eq_refl)|reflexivity]. }
    destruct (ref_cases ref) as [Hr|[a [rest [-> Ha]]]].
    - rewrite RL by (intros x ->; apply Hr; left; reflexivity). rewrite loop_simple; [|exact Hr|discriminate]. split.
      + intros [l1 [sc [l2 [E [-> [F N]]]]]].
        destruct (first_innermost (fun sc => exists d', fitting nm vis fit (dotted sc ref) d') _ _ _ _ E (ex_intro _ d F)) as [H1 H2].
        { intros x Hx [d' Q]. exact (N x Hx d' Q). }
        apply rs_simple; auto. intros sc' Es Ins d' Q. exact (H2 sc' Es Ins (ex_intro _ d' Q)).
      + intros H. inversion H as [n' d' F|ref' sc d' Nd En F Mx|first rest sc c d' Nf Nd En]; subst.
        * exfalso. apply Hr. left. reflexivity.
        * destruct (innermost_first (fun sc => exists d', fitting nm vis fit (dotted sc ref) d') (fun x => fitting_dec (dotted x ref)) scope sc En (ex_intro _ d F)) as [l1 [l2 [E N]]].
          { intros sc' Es Ins [d' Q]. exact (Mx sc' Es Ins d' Q). }
          exists l1, sc, l2. repeat (split; [assumption || reflexivity|]). intros x Hx d' Q. exact (N x Hx (ex_intro _ d' Q)).
        * exfalso. apply Hr. apply in_app_iff. right. left. reflexivity.
    - destruct a as [|a0 a].
      + cbn [app resolve_name]. rewrite N.eqb_refl. rewrite lookup_found. split.
        * intros [-> F]. apply rs_absolute. exact F.
        * intros H. inversion H as [n' d' F|ref' sc d' Nd En F Mx|first rest' sc c d' Nf Nd En]; subst.
          -- auto.
          -- exfalso. apply Nd. left. reflexivity.
          -- exfalso. destruct first as [|f0 first]; [contradiction|]. match goal with E : _ = dot :: rest |- _ => cbn in E; inversion E; subst end. apply Nd. left. reflexivity.
      + rewrite RL by (intros x E; cbn in E; inversion E; subst; apply Ha; left; reflexivity).
        rewrite loop_compound; [|exact Ha|discriminate].
        set (P := fun sc => exists c, nm (dotted sc (a0 :: a)) = Some c /\ container (d_kind c)).
        assert (forall x, P x \/ ~ P x) as dec.
        { intros x. unfold P. destruct (nm (dotted x (a0 :: a))) as [c|]; [|right; intros [? [E _]]; discriminate].
          destruct (is_parent (d_kind c)) eqn:E; [left; exists c; split; [reflexivity|apply is_parent_container; exact E]|].
          right. intros [c' [E' K]]. apply Some_inj in E'. subst c'. apply is_parent_container in K. congruence. }
        split.
        * intros [l1 [sc [l2 [c [E [H1 [H2 [-> [F N]]]]]]]]].
          destruct (first_innermost P _ _ _ _ E (ex_intro _ c (conj H1 H2))) as [Q1 Q2].
          { intros x Hx [c' [Ec K]]. exact (N x Hx c' Ec K). }
          eapply rs_compound; try eassumption; [discriminate|]. intros sc' Es Ins c' Ec K. exact (Q2 sc' Es Ins (ex_intro _ c' (conj Ec K))).
        * intros H. inversion H as [n' d' F|ref' sc d' Nd En F Mx|first rest' sc c d' Nf Nd En Hc Kc Mx F]; subst.
          -- exfalso. apply Ha. left. reflexivity.
          -- exfalso. apply Nd. apply in_app_iff. right. left. reflexivity.
          -- assert (first = a0 :: a /\ rest' = rest) as [-> ->].
             { match goal with E : first ++ dot :: rest' = _ |- _ => rename E into Eq end.
               assert (first_part (first ++ dot :: rest') = first_part ((a0 :: a) ++ dot :: rest)) as Q by (rewrite Eq; reflexivity).
               rewrite !first_part_compound in Q by assumption. subst first. change (a0 :: a ++ dot :: rest) with ((a0 :: a) ++ dot :: rest) in Eq. apply app_inv_head in Eq. inversion Eq. auto. }
             destruct (innermost_first P dec scope sc En (ex_intro _ c (conj Hc Kc))) as [l1 [l2 [E N]]].
             { intros sc' Es Ins [c' [Ec K]]. exact (Mx sc' Es Ins c' Ec K). }
             exists l1, sc, l2, c. repeat (split; [assumption || reflexivity|]). intros x Hx c' Ec K. exact (N x Hx (ex_intro _ c' (conj Ec K))).
  Qed.
End Loop.
