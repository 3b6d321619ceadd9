(** The text printed for a message is read back as the message rebuilt from
    its known fields. *)
From Coq Require Import String.
From Verif Require Import Base BaseProofs Wire WireProofs LoopProofs Unknown UnknownProofs
  Value Descr Fields Codec DescrOk DescrProofs FieldsProofs LenProofs MergeProofs RoundSpec RoundProofs
  RoundMain RoundSame ItemRound Float TextLex TextFormat TextParse TextLexProofs TextInts TextTokens TextSafe TextScalars.
Open Scope list_scope.
Open Scope N_scope.

(** ** Texts *)

Definition not_ident_head (s : bytes) : Prop := match s with c :: _ => ident_char c = false | [] => True end.

Lemma lex_punct' c k s ks : punct c = Some k -> c <> 46 -> lex s = Ok ks -> lex (c :: s) = Ok (k :: ks).
Proof.
  intros Hp Hc L. destruct c as [|c]; [discriminate|].
  do 7 (try (destruct c as [c|c|]; try discriminate Hp; try contradiction)); injection Hp as <-; now apply lex_punct.
Qed.

Lemma lexes_nil : lexes [] [].
Proof. intros rest ks _ L. exact L. Qed.
Lemma lexes_punct_after b ts c k : lexes b ts -> punct c = Some k -> c <> 46 ->
  (forall r, stops (c :: r)) -> lexes (b ++ [c]) (ts ++ [k]).
Proof.
  intros H Hp Hc Hs rest ks Hr L. rewrite <- !app_assoc. apply H; [apply Hs|]. cbn [app]. now apply lex_punct'.
Qed.
Lemma lexes_punct_before b ts c k : lexes b ts -> punct c = Some k -> c <> 46 -> lexes (c :: b) (k :: ts).
Proof. intros H Hp Hc rest ks Hr L. cbn [app]. apply lex_punct'; auto. Qed.
Lemma lexes_newline i b ts : lexes b ts -> lexes (newline i ++ b) ts.
Proof. intros H rest ks Hr L. rewrite <- app_assoc, lex_newline. now apply H. Qed.
Lemma stops_newline i s : stops (newline i ++ s).
Proof. unfold newline. cbn. auto. Qed.

(** texts joined by a separator *)
Fixpoint jtoks (sep : list tok) (l : list (list tok)) : list tok :=
  match l with
  | [] => []
  | [a] => a
  | a :: r => a ++ sep ++ jtoks sep r
  end.
Lemma rjoin_lexes sep st l tss :
  Forall2 (fun rb ts => exists b, rb = Ok b /\ lexes b ts) l tss ->
  (forall rest ks, lex rest = Ok ks -> lex (sep ++ rest) = Ok (st ++ ks)) ->
  (forall rest, stops (sep ++ rest)) ->
  exists b, rjoin sep l = Ok b /\ lexes b (jtoks st tss).
Proof.
  intros F Hl Hs. induction F as [|rb ts l tss (b & -> & Hb) F IH].
  - exists []. split; [reflexivity|apply lexes_nil].
  - destruct F as [|rb' ts' l tss Hx F].
    + exists b. split; [reflexivity|exact Hb].
    + destruct IH as (b' & E' & L'). exists (b ++ sep ++ b').
      change (rjoin sep (Ok b :: rb' :: l)) with (let! y := rjoin sep (rb' :: l) in Ok (b ++ sep ++ y)).
      rewrite E'. split; [reflexivity|].
      change (jtoks st (ts :: ts' :: tss)) with (ts ++ st ++ jtoks st (ts' :: tss)).
      intros rest ks Hr L. rewrite <- !app_assoc. apply Hb; [apply Hs|]. apply Hl. now apply L'.
Qed.
Lemma jtoks_length sep l : Forall (fun ts => (1 <= length ts)%nat) l -> (length l <= length (jtoks sep l))%nat.
Proof.
  intros F. induction F as [|ts l Hts F IH]; [cbn; lia|]. destruct l as [|ts' l]; [cbn in *; lia|].
  change (jtoks sep (ts :: ts' :: l)) with (ts ++ sep ++ jtoks sep (ts' :: l)). rewrite !app_length. cbn [length] in *. lia.
Qed.
Lemma jtoks_elem sep l ts : In ts l -> (length ts <= length (jtoks sep l))%nat.
Proof.
  induction l as [|a l IH]; [contradiction|]. intros [->|Hin].
  - destruct l; [cbn; lia|]. cbn [jtoks]. rewrite !app_length. lia.
  - destruct l as [|a' l]; [contradiction|]. specialize (IH Hin).
    change (jtoks sep (a :: a' :: l)) with (a ++ sep ++ jtoks sep (a' :: l)). rewrite !app_length. lia.
Qed.

(** ** Dotted names *)
Fixpoint split_dots (cur s : str) : list str :=
  match s with
  | [] => [cur]
  | c :: r => if c =? 46 then cur :: split_dots [] r else split_dots (cur ++ [c]) r
  end.
Definition dotted_okb (s : str) : bool := forallb ident_okb (split_dots [] s).
Fixpoint join_dots (l : list str) : str :=
  match l with
  | [] => []
  | [a] => a
  | a :: r => a ++ 46 :: join_dots r
  end.
Lemma split_dots_cons s : forall cur, exists a l, split_dots cur s = a :: l.
Proof.
  induction s as [|c s IH]; intros cur; cbn [split_dots]; [eauto|]. destruct (c =? 46); [eauto|apply IH].
Qed.
Lemma join_split s : forall cur, join_dots (split_dots cur s) = cur ++ s.
Proof.
  induction s as [|c s IH]; intros cur; cbn [split_dots]; [cbn; now rewrite app_nil_r|].
  destruct (N.eqb_spec c 46) as [->|Hc].
  - destruct (split_dots_cons s []) as (a & l & E). specialize (IH []). rewrite E in *. cbn [join_dots]. cbn [app] in IH.
    cbn [join_dots] in IH. rewrite IH. reflexivity.
  - rewrite IH, <- app_assoc. reflexivity.
Qed.
Definition dot_toks (l : list str) : list tok := flat_map (fun s => [TDot; TIdent s]) l.
Definition name_toks (s : str) : list tok :=
  match split_dots [] s with a :: l => TIdent a :: dot_toks l | [] => [] end.

Lemma lex_dot s ks : match s with c :: _ => is_digit c = false | [] => False end -> lex s = Ok ks -> lex (46 :: s) = Ok (TDot :: ks).
Proof.
  intros Hs L. destruct s as [|c s]; [contradiction|]. apply lex_token with (r := c :: s); [split; reflexivity| |exact L].
  cbn [next_token]. change (ident_start 46) with false. change (is_digit 46) with false. cbv iota.
  change ((46 =? 34) || (46 =? 39)) with false. cbv iota. rewrite Hs. reflexivity.
Qed.
Lemma lex_join l : forall a rest ks, ident_okb a = true -> forallb ident_okb l = true -> not_ident_head rest -> lex rest = Ok ks ->
  lex (join_dots (a :: l) ++ rest) = Ok (TIdent a :: dot_toks l ++ ks).
Proof.
  induction l as [|b l IH]; intros a rest ks Ha Hl Hr L.
  - cbn [join_dots dot_toks flat_map app]. now apply lex_ident.
  - cbn [forallb] in Hl. apply andb_true_iff in Hl. destruct Hl as [Hb Hl].
    change (join_dots (a :: b :: l)) with (a ++ 46 :: join_dots (b :: l)). rewrite <- app_assoc.
    apply lex_ident; [exact Ha|reflexivity|]. cbn [app].
    change (dot_toks (b :: l) ++ ks) with (TDot :: TIdent b :: dot_toks l ++ ks).
    apply lex_dot; [|now apply IH].
    destruct b as [|c b]; [discriminate|]. cbn [ident_okb] in Hb. apply andb_true_iff in Hb. destruct Hb as [Hc _].
    assert (is_digit c = false) as Hd.
    { unfold is_digit. unfold ident_start, is_alpha, in_range in Hc. lia. }
    destruct l; cbn [join_dots app]; exact Hd.
Qed.
Lemma lex_dotted s rest ks : dotted_okb s = true -> not_ident_head rest -> lex rest = Ok ks -> lex (s ++ rest) = Ok (name_toks s ++ ks).
Proof.
  unfold dotted_okb, name_toks. intros H Hr L. pose proof (join_split s []) as J. destruct (split_dots_cons s []) as (a & l & E).
  rewrite E in *. cbn [forallb] in H. apply andb_true_iff in H. destruct H as [Ha Hl].
  cbn [app] in J. rewrite <- J at 1. now apply lex_join.
Qed.
Lemma more_ident_dots terms l : forall acc r, terms r = true -> match r with TDot :: _ => False | _ => True end ->
  more_ident terms acc (dot_toks l ++ r) = POk (acc ++ flat_map (cons 46) l) r.
Proof.
  induction l as [|a l IH]; intros acc r Ht Hr.
  - cbn [dot_toks flat_map app]. rewrite app_nil_r. destruct r as [|k r]; [cbn; rewrite Ht; reflexivity|].
    destruct k; try contradiction; cbn [more_ident]; rewrite Ht; reflexivity.
  - cbn [dot_toks flat_map app more_ident]. change (flat_map (fun s => [TDot; TIdent s]) l) with (dot_toks l).
    rewrite IH by assumption. rewrite <- app_assoc. reflexivity.
Qed.
Lemma join_cons l : forall a, join_dots (a :: l) = a ++ flat_map (cons 46) l.
Proof.
  induction l as [|b l IH]; intros a; [cbn; now rewrite app_nil_r|].
  change (join_dots (a :: b :: l)) with (a ++ 46 :: join_dots (b :: l)). rewrite IH. reflexivity.
Qed.
Lemma full_ident_name terms s r : terms r = true -> match r with TDot :: _ => False | _ => True end ->
  full_ident terms (name_toks s ++ r) = POk s r.
Proof.
  intros Ht Hr. unfold name_toks. pose proof (join_split s []) as J. destruct (split_dots_cons s []) as (a & l & E).
  rewrite E in *. cbn [app full_ident]. rewrite more_ident_dots by assumption. rewrite <- join_cons, J. reflexivity.
Qed.

(** every float in a value is one that the reader gives back *)
Fixpoint floats_back (E : text_externs) (v : value) : bool :=
  match v with
  | VMessage (DM _ fs) => forallb (fun kv => match snd kv with SVal v' => floats_back E v' | _ => true end) fs
  | VList vs => forallb (floats_back E) vs
  | VMap kvs => forallb (fun kv => floats_back E (snd kv)) kvs
  | _ => float_back E v
  end.

(** ** Runs of fields *)

Definition starts_field (ts : list tok) : Prop := match ts with (TIdent _ | TLBrack) :: _ => True | _ => False end.
Inductive reads_fields (pf : dynmsg -> list tok -> mres) : nat -> dynmsg -> list tok -> dynmsg -> list tok -> Prop :=
| rf_nil m ts : reads_fields pf 0 m ts m ts
| rf_cons k m ts m1 ts1 m' ts' : starts_field ts -> pf m ts = MOk m1 ts1 ->
    reads_fields pf k m1 ts1 m' ts' -> reads_fields pf (S k) m ts m' ts'.
Lemma message_loop_reads pf k m ts m' r : reads_fields pf k m ts m' (TRBrace :: r) ->
  forall n, (k < n)%nat -> message_loop n pf false m ts = MOk m' r.
Proof.
  intros H. remember (TRBrace :: r) as tl eqn:Etl. induction H as [m ts|k m ts m1 ts1 m' ts' Hs Hp H IH]; intros n Hn; (destruct n as [|n]; [lia|]).
  - subst ts. reflexivity.
  - assert (message_loop (S n) pf false m ts = match pf m ts with MOk m' ts' => message_loop n pf false m' ts' | r => r end) as ->.
    { destruct ts as [|a ts]; [contradiction|]. destruct a; try contradiction; reflexivity. }
    rewrite Hp. apply IH; [exact Etl|lia].
Qed.
Lemma fields_loop_reads pf k m ts m' : reads_fields pf k m ts m' [] ->
  forall n, (k < n)%nat -> fields_loop n pf m ts = MOk m' [].
Proof.
  intros H. remember (@nil tok) as tl eqn:Etl. induction H as [m ts|k m ts m1 ts1 m' ts' Hs Hp H IH]; intros n Hn; (destruct n as [|n]; [lia|]).
  - subst ts. reflexivity.
  - assert (fields_loop (S n) pf m ts = match pf m ts with MOk m' ts' => fields_loop n pf m' ts' | r => r end) as ->.
    { destruct ts as [|a ts]; [contradiction|]. destruct a; try contradiction; reflexivity. }
    rewrite Hp. apply IH; [exact Etl|lia].
Qed.
(** what follows the last field *)
Definition ends_fields (ts : list tok) : Prop := match ts with [] | TRBrace :: _ => True | _ => False end.
Lemma ends_follows ts : ends_fields ts -> follows ts.
Proof. destruct ts as [|k ts]; [exact (fun _ => I)|]. destruct k; cbn; tauto. Qed.

(** [P] holds of every message in the value *)
Fixpoint each_message (P : dynmsg -> Prop) (v : value) : Prop :=
  match v with
  | VMessage (DM d fs) =>
      P (DM d fs) /\ fold_right and True (map (fun kv => match snd kv with SVal x => each_message P x | _ => True end) fs)
  | VList vs => fold_right and True (map (each_message P) vs)
  | VMap kvs => fold_right and True (map (fun kv => each_message P (snd kv)) kvs)
  | _ => True
  end.
Lemma all_and {A} (P : A -> Prop) l : fold_right and True (map P l) <-> Forall P l.
Proof. induction l as [|a l IH]; cbn; [split; auto|]. rewrite IH. split; [intros []; now constructor|intros H; inversion H; auto]. Qed.

(** ** Fields *)
Section TextRound.
  Variables (E : text_externs) (t : tables).
  Hypothesis Hwf : wf t.
  Let Ht : tables_ok t := proj1 Hwf.
  Variables pretty ex full idx : bool.
  Let o := TOpt pretty true ex (negb full) idx.
  Variable any : nat -> dynmsg -> option (res bytes).
  Hypothesis Hsearch : forall l z i, tx_search E l z = Some i -> exists j, nth_error l i = Some (z, j).
  Hypothesis Henum : forall e, enum_text_okb t e = true.
  Hypothesis Hop : oneofs_present t.
  Hypothesis Hdp : defaults_plain t.
  (** names lead back to the fields they are printed for *)
  Hypothesis Hname : forall d f, get_field t d (fd_number f) = Some f ->
    ident_okb (print_name t f) = true /\ find_field t d (print_name t f) = Some f.
  Hypothesis Hext : forall d f, get_ext t d (fd_number f) = Some f ->
    dotted_okb (fd_full f) = true /\ get_ext_by_full t d (fd_full f) = Some f.
  Hypothesis Hentry : forall d n f e kf vf, find_desc t d n = Some f -> fd_is_map f = true -> kind_msg (fd_kind f) = Some e ->
    entry_key t e = Some kf -> entry_value t e = Some vf ->
    find_field t e (s2b "key") = Some kf /\ find_field t e (s2b "value") = Some vf /\
    fd_oneof kf = None /\ fd_oneof vf = None.

  (** how expanded Any messages are read *)
  Variable ran : dynmsg -> option dynmsg.
  Definition any_reads (m m' : dynmsg) : Prop := forall ind, exists b ts,
    any ind m = Some (Ok b) /\ lexes b ts /\ starts_field ts /\
    forall n r, (length ts <= n)%nat -> ends_fields r ->
      reads_fields (parse_field t (parse_value t n)) 1 (new_msg (dm_desc m)) (ts ++ r) m' r.
  Variable safe : dynmsg -> Prop.
  Hypothesis Hany : forall m, ok_msg t m = true -> safe m ->
    match ran m with
    | Some m' => known t full idx (dm_desc m) (dm_fields m) <> [] /\ any_reads m m'
    | None => known t full idx (dm_desc m) (dm_fields m) <> [] -> forall ind, any ind m = None
    end.

  Notation renew := (renew t full idx ran).
  Notation renew_msg := (renew_msg t full idx ran).
  Notation renewed := (renewed t full idx ran).
  Notation fmt := (fmt_value E t o any).

  Definition shape (v : value) (b : bytes) (ts : list tok) : Prop :=
    match v with VMessage _ => (exists b', b = 123 :: b') /\ (exists ts', ts = TLBrace :: ts') | _ => True end.

  Definition elem_reads (v : value) (k : kind) : Prop := forall ind, exists b ts,
    fmt v ind (Some k) = Ok b /\ lexes b ts /\ value_head ts /\ shape v b ts /\
    forall n ts', (length ts <= n)%nat -> follows ts' -> parse_value t n k (ts ++ ts') = POk (renew v) ts'.

  Definition field_reads (f : fdl) (v : value) : Prop := forall ind, exists b ts,
    fmt v ind (Some (fd_kind f)) = Ok b /\ lexes b ts /\ shape v b ts /\
    forall n m ts', (length ts <= n)%nat -> follows ts' -> bt_sorted (dm_fields m) ->
      bt_get (fd_number f) (dm_fields m) = None -> no_siblings f (dm_fields m) ->
      field_value_in t (parse_value t n) m f (ts ++ ts')
      = MOk (with_fields m (bt_set (fd_number f) (SVal (renew v)) (dm_fields m))) ts'.

  (** *** Scalars *)
  Lemma parse_value_scalar n k ts : kind_msg k = None -> parse_value t n k ts = parse_scalar t k ts.
  Proof. intros H. destruct n; cbn [parse_value]; rewrite H; reflexivity. Qed.

  Lemma scalar_elem_reads v k : sc_okb k v = true -> float_back E v = true -> elem_reads v k.
  Proof.
    intros Hok Hf ind. destruct (scalar_read E t Hsearch Henum k v Hok Hf) as (b & ts & Eb & L & Hh & Hp).
    exists b, ts.
    assert (scalar v = true) as Hs by (destruct v; try reflexivity; destruct k; discriminate Hok).
    assert (kind_msg k = None) as Hk by (destruct k; try reflexivity; destruct v; discriminate Hok).
    split; [destruct v; try discriminate Hs; cbn [fmt_value]; rewrite Eb; reflexivity|].
    split; [exact L|]. split; [exact Hh|]. split; [destruct v; try discriminate Hs; exact I|].
    intros n ts' _ Hts. rewrite parse_value_scalar by exact Hk. rewrite Hp by exact Hts.
    destruct v; try discriminate Hs; reflexivity.
  Qed.

  (** *** From elements to fields *)
  Lemma put_fresh f v fs : bt_sorted fs -> no_siblings f fs -> fs_put f v (fs_get_mut t f fs) = bt_set (fd_number f) (SVal v) fs.
  Proof.
    intros Hs Hn. apply bt_ext.
    - apply put_sorted, get_mut_sorted, Hs.
    - apply bt_set_sorted, Hs.
    - intros k. unfold fs_put. destruct (N.eq_dec k (fd_number f)) as [->|Hk].
      + rewrite !bt_get_set_same. reflexivity.
      + rewrite !bt_get_set_other by exact Hk. rewrite get_mut_get.
        destruct (k =? fd_number f) eqn:Ek; [lia|].
        destruct (siblingb f k) eqn:Es; [|reflexivity].
        apply siblingb_ok in Es. symmetry. apply Hn, Es.
  Qed.
  Lemma set_fresh f v fs : bt_sorted fs -> no_siblings f fs -> fs_set f v fs = bt_set (fd_number f) (SVal v) fs.
  Proof.
    intros Hs Hn. apply bt_ext.
    - apply set_sorted, Hs.
    - apply bt_set_sorted, Hs.
    - intros k. rewrite set_get. destruct (N.eq_dec k (fd_number f)) as [->|Hk].
      + rewrite N.eqb_refl, bt_get_set_same. reflexivity.
      + rewrite bt_get_set_other by exact Hk. destruct (k =? fd_number f) eqn:Ek; [lia|].
        destruct (siblingb f k) eqn:Es; [|reflexivity]. apply siblingb_ok in Es. symmetry. apply Hn, Es.
  Qed.
  Lemma get_mut_fresh f fs : bt_sorted fs -> bt_get (fd_number f) fs = None -> fs_get t f (fs_get_mut t f fs) = fd_default_value t f.
  Proof. intros Hs Hb. rewrite get_mut_get_self. unfold fs_get, fs_get_value. rewrite Hb. reflexivity. Qed.
  Lemma oneof_free f m : bt_get (fd_number f) (dm_fields m) = None -> no_siblings f (dm_fields m) ->
    match fd_oneof f with Some nums => existsb (has_field_by_number t m) nums | None => false end = false.
  Proof.
    intros Hb Hn. destruct (fd_oneof f) as [nums|] eqn:Eo; [|reflexivity].
    destruct (existsb (has_field_by_number t m) nums) eqn:Ee; [|reflexivity]. apply existsb_exists in Ee.
    destruct Ee as (k & Hin & Hh). unfold has_field_by_number in Hh.
    assert (bt_get k (dm_fields m) = None) as Bk.
    { destruct (N.eq_dec k (fd_number f)) as [->|Hk]; [exact Hb|]. apply Hn. exists nums. auto. }
    destruct (get_field t (dm_desc m) k) as [g|] eqn:Eg; [|discriminate].
    unfold has_field, fs_has, fs_get_value in Hh. rewrite (get_field_number _ _ _ _ Ht Eg), Bk in Hh. discriminate.
  Qed.

  Lemma single_reads f v : fd_is_list f = false -> fd_is_map f = false -> elem_reads v (fd_kind f) -> field_reads f v.
  Proof.
    intros Hl Hm He ind. destruct (He ind) as (b & ts & Eb & L & Hh & Hs & Hp). exists b, ts.
    split; [exact Eb|]. split; [exact L|]. split; [exact Hs|].
    intros n m ts' Hn Hts Hso Hb Hsib. unfold field_value_in. rewrite Hl, Hm, Hp by assumption. cbn [mbind].
    unfold fs_has, fs_get_value. rewrite Hb, oneof_free by assumption. rewrite set_fresh by assumption. reflexivity.
  Qed.

  (** *** Lists *)
  Lemma value_head_pos ts : value_head ts -> (1 <= length ts)%nat.
  Proof. destruct ts; cbn; [contradiction|lia]. Qed.
  Lemma list_rest_reads pv k l tss : Forall2 (fun v ts => forall ts', follows ts' -> pv k (ts ++ ts') = POk v ts') l tss ->
    forall n acc ts', (length tss < n)%nat ->
    list_rest n pv k acc (flat_map (cons TComma) tss ++ TRBrack :: ts') = POk (VList (acc ++ l)) ts'.
  Proof.
    intros F. induction F as [|v ts l tss Hv F IH]; intros n acc ts' Hn; (destruct n as [|n]; [cbn in Hn; lia|]).
    - cbn. rewrite app_nil_r. reflexivity.
    - cbn [flat_map app list_rest]. rewrite <- app_assoc. rewrite Hv.
      + cbn [pbind]. rewrite IH by (cbn in Hn; lia). rewrite <- app_assoc. reflexivity.
      + destruct tss; exact I.
  Qed.
  Lemma jtoks_comma ts tss : jtoks [TComma] (ts :: tss) = ts ++ flat_map (cons TComma) tss.
  Proof.
    revert ts. induction tss as [|a tss IH]; intros ts; [cbn; now rewrite app_nil_r|].
    change (jtoks [TComma] (ts :: a :: tss)) with (ts ++ [TComma] ++ jtoks [TComma] (a :: tss)). rewrite IH. reflexivity.
  Qed.
  Lemma repeated_reads pv k l tss ts' : Forall2 (fun v ts => forall ts', follows ts' -> pv k (ts ++ ts') = POk v ts') l tss ->
    Forall value_head tss ->
    repeated_value pv k (TLBrack :: jtoks [TComma] tss ++ TRBrack :: ts') = POk (VList l) ts'.
  Proof.
    intros F H. destruct F as [|v ts l tss Hv F]; [reflexivity|].
    rewrite jtoks_comma, <- app_assoc. inversion_clear H as [|? ? Hh H'].
    assert (repeated_value pv k (TLBrack :: ts ++ flat_map (cons TComma) tss ++ TRBrack :: ts')
      = pbind (pv k (ts ++ flat_map (cons TComma) tss ++ TRBrack :: ts')) (fun v r' => list_rest (S (length r')) pv k [v] r')) as ->.
    { destruct ts as [|a ts]; [contradiction|]. destruct a; try contradiction; reflexivity. }
    rewrite Hv by (destruct tss; exact I). cbn [pbind].
    change (v :: l) with ([v] ++ l). apply list_rest_reads; [exact F|]. rewrite app_length.
    assert (length tss <= length (flat_map (cons TComma) tss))%nat.
    { clear. induction tss as [|a tss IH]; cbn; [lia|]. rewrite app_length. lia. }
    cbn [length]. lia.
  Qed.
  Lemma padding_cases : padding o = [] \/ padding o = [32].
  Proof. unfold padding. cbn [o o_pretty]. destruct pretty; auto. Qed.
  Lemma lex_padding s : lex (padding o ++ s) = lex s.
  Proof. unfold padding. cbn [o o_pretty]. destruct pretty; [apply lex_space; reflexivity|reflexivity]. Qed.
  Lemma list_text (l : list (res bytes)) tss :
    Forall2 (fun rb ts => exists b, rb = Ok b /\ lexes b ts) l tss ->
    exists b, (let! b := rjoin (44 :: padding o) l in Ok (91 :: b ++ [93])) = Ok b /\
      lexes b (TLBrack :: jtoks [TComma] tss ++ [TRBrack]).
  Proof.
    intros F. destruct (rjoin_lexes (44 :: padding o) [TComma] l tss F) as (b & Eb & L).
    - intros rest ks Lr. change ((44 :: padding o) ++ rest) with (44 :: padding o ++ rest).
      apply lex_punct'; [reflexivity|discriminate|]. rewrite lex_padding. exact Lr.
    - intros rest. cbn. auto.
    - rewrite Eb. eexists. split; [reflexivity|].
      apply lexes_punct_before; [|reflexivity|discriminate].
      apply lexes_punct_after; [exact L|reflexivity|discriminate|]. intros r. cbn. auto.
  Qed.

  Lemma F2_length {A B} (P : A -> B -> Prop) l l' : Forall2 P l l' -> length l = length l'.
  Proof. intros F. induction F; cbn; congruence. Qed.
  Lemma Forall2_choose {A B} (P : A -> B -> Prop) l : Forall (fun a => exists b, P a b) l -> exists l', Forall2 P l l'.
  Proof.
    intros F. induction F as [|a l (b & Hb) F (l' & IH)]; [exists []; constructor|]. exists (b :: l'). constructor; assumption.
  Qed.
  Lemma Forall2_imp {A B} (P Q : A -> B -> Prop) l l' : (forall a b, P a b -> Q a b) -> Forall2 P l l' -> Forall2 Q l l'.
  Proof. intros H F. induction F; constructor; auto. Qed.
  Lemma Forall2_mapl {A A' B} (g : A -> A') (P : A' -> B -> Prop) l l' : Forall2 (fun a b => P (g a) b) l l' -> Forall2 P (map g l) l'.
  Proof. intros F. induction F; constructor; auto. Qed.
  Lemma Forall2_r {A B} (P : A -> B -> Prop) (Q : B -> Prop) l l' : Forall2 P l l' -> (forall a b, In a l -> P a b -> Q b) -> Forall Q l'.
  Proof.
    intros F H. induction F as [|a b l l' Hab F IH]; constructor; [apply (H a); [left; reflexivity|exact Hab]|].
    apply IH. intros a' b' Hin. apply H. right. exact Hin.
  Qed.

  Lemma list_reads f l : fd_is_list f = true -> Forall (fun v => elem_reads v (fd_kind f)) l -> field_reads f (VList l).
  Proof.
    intros Hl F ind.
    assert (C : exists tss, Forall2 (fun v ts => (exists b, fmt v ind (Some (fd_kind f)) = Ok b /\ lexes b ts) /\ value_head ts /\
      forall n ts', (length ts <= n)%nat -> follows ts' -> parse_value t n (fd_kind f) (ts ++ ts') = POk (renew v) ts') l tss).
    { apply Forall2_choose. eapply Forall_impl; [|exact F]. intros v Hv. destruct (Hv ind) as (b & ts & H1 & H2 & H3 & _ & H4).
      exists ts. eauto. }
    destruct C as (tss & C).
    destruct (list_text (map (fun x => fmt x ind (Some (fd_kind f))) l) tss) as (b & Eb & L).
    { apply Forall2_mapl. eapply Forall2_imp; [|exact C]. intros v ts (H & _). exact H. }
    exists b, (TLBrack :: jtoks [TComma] tss ++ [TRBrack]). split; [exact Eb|]. split; [exact L|]. split; [exact I|].
    intros n m ts' Hn Hts Hso Hb Hsib. unfold field_value_in. rewrite Hl.
    cbn [app]. rewrite <- app_assoc. cbn [app].
    rewrite (repeated_reads (parse_value t n) (fd_kind f) (map renew l) tss).
    - cbn [mbind]. rewrite get_mut_fresh by assumption. unfold fd_default_value. rewrite Hl. cbn [app].
      rewrite put_fresh by assumption. reflexivity.
    - apply Forall2_mapl.
      assert (B : Forall (fun ts => (length ts <= n)%nat) tss).
      { apply Forall_forall. intros ts Hin. pose proof (jtoks_elem [TComma] tss ts Hin). cbn [length] in Hn. rewrite app_length in Hn. lia. }
      clear - C B. revert B. induction C as [|v ts l tss (_ & _ & H) C IH]; intros B; constructor.
      + intros ts' Hts. apply H; [inversion B; assumption|exact Hts].
      + apply IH. inversion B; assumption.
    - eapply Forall2_r; [exact C|]. intros v ts _ (_ & H & _). exact H.
  Qed.

  (** *** Named fields *)

  (** [nb] and [nt] are the text and the tokens of a name of [f] in messages of
      type [d] *)
  Record names (d : nat) (f : fdl) (nb : bytes) (nt : list tok) : Prop := {
    nm_lex : forall rest ks, not_ident_head rest -> lex rest = Ok ks -> lex (nb ++ rest) = Ok (nt ++ ks);
    nm_head : match nt with (TIdent _ | TLBrack) :: _ => True | _ => False end;
    nm_parse : forall pv m r, dm_desc m = d ->
      parse_field t pv m (nt ++ r) = mbind m (field_sep r) (fun _ r1 => field_end (field_value_in t pv m f r1))
  }.
  Lemma ident_names d f s : ident_okb s = true -> find_field t d s = Some f -> names d f s [TIdent s].
  Proof.
    intros Hi Hf. constructor.
    - intros rest ks Hr L. now apply lex_ident.
    - exact I.
    - intros pv m r Hd. unfold parse_field. cbn [app field_name mbind]. rewrite Hd, Hf. reflexivity.
  Qed.
  Lemma ext_names d f : dotted_okb (fd_full f) = true -> get_ext_by_full t d (fd_full f) = Some f ->
    names d f (91 :: fd_full f ++ [93]) (TLBrack :: name_toks (fd_full f) ++ [TRBrack]).
  Proof.
    intros Hi Hf. constructor.
    - intros rest ks Hr L. cbn [app]. rewrite <- !app_assoc. apply lex_punct'; [reflexivity|discriminate|].
      apply lex_dotted; [exact Hi|reflexivity|]. cbn [app]. apply lex_punct'; [reflexivity|discriminate|exact L].
    - exact I.
    - intros pv m r Hd. unfold parse_field. cbn [app]. rewrite <- app_assoc. cbn [app field_name].
      rewrite full_ident_name by (try reflexivity; exact I). cbn [pbind mbind]. rewrite Hd, Hf. reflexivity.
  Qed.

  (** a name, a colon unless a message follows, and the value *)
  Definition named_reads (d : nat) (f : fdl) (v : value) (nb : bytes) (ind : nat) : Prop := exists b ts,
    (let! b := field_value o v (fmt v ind (Some (fd_kind f))) in Ok (nb ++ b)) = Ok b /\ lexes b ts /\
    match ts with (TIdent _ | TLBrack) :: _ => True | _ => False end /\
    forall n m ts', (length ts <= n)%nat -> follows ts' -> dm_desc m = d -> bt_sorted (dm_fields m) ->
      bt_get (fd_number f) (dm_fields m) = None -> no_siblings f (dm_fields m) ->
      parse_field t (parse_value t n) m (ts ++ ts')
      = field_end (MOk (with_fields m (bt_set (fd_number f) (SVal (renew v)) (dm_fields m))) ts').

  Lemma field_named d f v nb nt ind : names d f nb nt -> field_reads f v -> named_reads d f v nb ind.
  Proof.
    intros Hn Hf. destruct (Hf ind) as (b & ts & Eb & L & Hs & Hp).
    pose (colon := match v with VMessage _ => [] | _ => [58] end).
    pose (ctok := match v with VMessage _ => [] | _ => [TColon] end).
    exists (nb ++ colon ++ padding o ++ b), (nt ++ ctok ++ ts).
    assert (Hc : forall rest ks, lex rest = Ok ks -> lex (colon ++ rest) = Ok (ctok ++ ks)).
    { intros rest ks Lr. unfold colon, ctok. destruct v; try (apply lex_punct'; [reflexivity|discriminate|exact Lr]). exact Lr. }
    assert (Hsep : forall r, field_sep (ctok ++ ts ++ r) = POk tt (ts ++ r)).
    { intros r. unfold ctok. destruct v; try reflexivity. destruct Hs as (_ & ts' & ->). reflexivity. }
    assert (Hh : forall r, not_ident_head (colon ++ padding o ++ b ++ r)).
    { intros r. unfold colon. destruct v; try reflexivity. destruct Hs as ((b' & ->) & _). destruct padding_cases as [-> | ->]; reflexivity. }
    split; [rewrite Eb; unfold field_value; cbn [rbind]; unfold colon; destruct v; reflexivity|].
    split.
    { intros rest ks Hr Lr. rewrite <- !app_assoc. apply (nm_lex _ _ _ _ Hn); [apply Hh|]. apply Hc. rewrite lex_padding. now apply L. }
    split.
    { pose proof (nm_head _ _ _ _ Hn) as H. destruct nt as [|k nt]; [contradiction|]. exact H. }
    intros n m ts' Hlen Hts Hd Hso Hb Hsib. rewrite <- !app_assoc, (nm_parse _ _ _ _ Hn) by exact Hd.
    rewrite Hsep. cbn [mbind]. rewrite Hp; [reflexivity| |assumption..].
    rewrite !app_length in Hlen. lia.
  Qed.

  (** *** Messages *)
  Definition sep_toks : list tok := if pretty then [] else [TComma].
  Lemma separator_lex ind rest ks : lex rest = Ok ks -> lex (separator o ind ++ rest) = Ok (sep_toks ++ ks).
  Proof.
    intros L. unfold separator, sep_toks. cbn [o o_pretty]. destruct pretty.
    - rewrite lex_newline. exact L.
    - apply lex_punct'; [reflexivity|discriminate|exact L].
  Qed.
  Lemma separator_stops ind rest : stops (separator o ind ++ rest).
  Proof. unfold separator. cbn [o o_pretty]. destruct pretty; [apply stops_newline|cbn; auto]. Qed.
  Lemma sep_follows ts : starts_field ts -> follows (sep_toks ++ ts).
  Proof.
    intros H. unfold sep_toks. destruct pretty; [|exact I]. destruct ts as [|k ts]; [contradiction|]. destruct k; try contradiction; exact I.
  Qed.
  Lemma sep_end m ts : starts_field ts -> field_end (MOk m (sep_toks ++ ts)) = MOk m ts.
  Proof.
    intros H. unfold sep_toks. destruct pretty; [|reflexivity]. destruct ts as [|k ts]; [contradiction|]. destruct k; try contradiction; reflexivity.
  Qed.
  Lemma end_end m ts : ends_fields ts -> field_end (MOk m ts) = MOk m ts.
  Proof. destruct ts as [|k ts]; [reflexivity|]. destruct k; try contradiction; reflexivity. Qed.

  Definition item_name (it : item value) : bytes :=
    match it with IField f _ => print_name t f | IExt f _ => 91 :: fd_full f ++ [93] | IUnk _ => [] end.
  Definition fmt_known (ind : nat) (it : item value) : res bytes :=
    match fitem it with
    | Some (f, v) => let! b := field_value o v (fmt v ind (Some (fd_kind f))) in Ok (item_name it ++ b)
    | None => Ok []
    end.
  Definition item_reads (d : nat) (ind : nat) (it : item value) : Prop :=
    forall f v, fitem it = Some (f, v) -> named_reads d f v (item_name it) ind.

  Lemma item_named d fs ind it f v : is_known t full d fs it f v -> field_reads f v -> item_reads d ind it.
  Proof.
    intros K Hr f' v' Ei. pose proof (ik_item _ _ _ _ _ _ _ K) as Ei'. rewrite Ei in Ei'. injection Ei' as -> ->.
    pose proof (ik_kind _ _ _ _ _ _ _ K) as Hk. destruct it as [g w|g w|us]; [| |discriminate]; cbn [fitem] in Ei; injection Ei as -> ->.
    - destruct (Hname _ _ Hk) as [H1 H2]. eapply field_named; [|exact Hr]. cbn [item_name]. now apply ident_names.
    - destruct (Hext _ _ Hk) as [H1 H2]. eapply field_named; [|exact Hr]. cbn [item_name]. now apply ext_names.
  Qed.

  (** the invariant while the fields [its] are still to come *)
  Record partly (d : nat) (fs : fieldset) (its : list (item value)) (m : dynmsg) : Prop := {
    pa_desc : dm_desc m = d;
    pa_sorted : bt_sorted (dm_fields m);
    pa_keys : forall k s, bt_get k (dm_fields m) = Some s ->
      (exists it f v, is_known t full d fs it f v /\ fd_number f = k) /\ ~ In k (map knum its)
  }.
  Lemma items_read d fs ind its : msg_ok t (DM d fs) ->
    Forall (fun it => exists f v, is_known t full d fs it f v) its -> NoDup (map knum its) ->
    Forall (item_reads d ind) its ->
    exists tss, Forall2 (fun it ts => exists b, fmt_known ind it = Ok b /\ lexes b ts) its tss /\
      Forall starts_field tss /\
      forall n m r, (length (jtoks sep_toks tss) <= n)%nat -> partly d fs its m -> ends_fields r ->
        reads_fields (parse_field t (parse_value t n)) (length its) m (jtoks sep_toks tss ++ r)
          (DM d (fold_left (put_item renew) its (dm_fields m))) r.
  Proof.
    intros Hm. induction its as [|it its IH]; intros HK Hnd HR.
    - exists []. split; [constructor|]. split; [constructor|]. intros n m r _ Hp _. cbn [jtoks app length fold_left].
      rewrite <- (pa_desc _ _ _ _ Hp). destruct m. constructor.
    - inversion_clear HK as [|? ? (f & v & K) HK']. inversion_clear HR as [|? ? R HR'].
      cbn [map] in Hnd. inversion_clear Hnd as [|? ? Hni Hnd'].
      destruct (IH HK' Hnd' HR') as (tss & F & Hst & Hrun). clear IH.
      pose proof (ik_item _ _ _ _ _ _ _ K) as Ei.
      destruct (R f v Ei) as (b & ts & Eb & L & Hs & Hp).
      exists (ts :: tss). split.
      { constructor; [|exact F]. exists b. split; [|exact L]. unfold fmt_known. rewrite Ei. exact Eb. }
      split; [constructor; assumption|].
      intros n m r Hn P Hr. cbn [length fold_left].
      assert (Ek : knum it = fd_number f) by (unfold knum; rewrite Ei; reflexivity).
      pose (m1 := with_fields m (bt_set (fd_number f) (SVal (renew v)) (dm_fields m))).
      assert (Step : forall ts', follows ts' -> parse_field t (parse_value t n) m (ts ++ ts') = field_end (MOk m1 ts')).
      { intros ts' Hts. apply Hp; auto.
        - pose proof (jtoks_elem sep_toks (ts :: tss) ts (or_introl eq_refl)). lia.
        - apply (pa_desc _ _ _ _ P).
        - apply (pa_sorted _ _ _ _ P).
        - destruct (bt_get (fd_number f) (dm_fields m)) as [s|] eqn:Eg; [|reflexivity].
          destruct (pa_keys _ _ _ _ P _ _ Eg) as [_ Hno]. exfalso. apply Hno. left. exact Ek.
        - intros k Hk. destruct (bt_get k (dm_fields m)) as [s|] eqn:Eg; [|reflexivity].
          destruct (pa_keys _ _ _ _ P _ _ Eg) as [(it2 & f2 & v2 & K2 & <-) _]. exfalso.
          exact (known_compat t Hwf full (DM d fs) it it2 f v f2 v2 Hop Hm K K2 Hk). }
      assert (P1 : partly d fs its m1).
      { constructor; unfold m1; cbn [with_fields dm_desc dm_fields].
        - apply (pa_desc _ _ _ _ P).
        - apply bt_set_sorted, (pa_sorted _ _ _ _ P).
        - intros k s Hg. destruct (N.eq_dec k (fd_number f)) as [->|Hk].
          + split; [exists it, f, v; auto|]. rewrite <- Ek. exact Hni.
          + rewrite bt_get_set_other in Hg by exact Hk. destruct (pa_keys _ _ _ _ P _ _ Hg) as [H1 H2]. split; [exact H1|].
            intros Hin. apply H2. right. exact Hin. }
      replace (put_item renew (dm_fields m) it) with (dm_fields m1) by (unfold put_item; rewrite Ei; reflexivity).
      destruct tss as [|ts2 tss].
      + inversion F; subst. cbn [jtoks length fold_left]. apply rf_cons with (m1 := m1) (ts1 := r).
        * destruct ts as [|k ts]; [contradiction|]. exact Hs.
        * rewrite Step by (apply ends_follows, Hr). now apply end_end.
        * cbn [dm_fields]. rewrite <- (pa_desc _ _ _ _ P1). destruct m1. constructor.
      + change (jtoks sep_toks (ts :: ts2 :: tss)) with (ts ++ sep_toks ++ jtoks sep_toks (ts2 :: tss)) in *.
        assert (Hst2 : starts_field (jtoks sep_toks (ts2 :: tss) ++ r)).
        { inversion_clear Hst as [|? ? H2 _]. destruct ts2 as [|k ts2]; [contradiction|]. destruct tss; exact H2. }
        apply rf_cons with (m1 := m1) (ts1 := jtoks sep_toks (ts2 :: tss) ++ r).
        * destruct ts as [|k ts]; [contradiction|]. exact Hs.
        * rewrite <- !app_assoc. rewrite Step by (apply sep_follows, Hst2). now apply sep_end.
        * apply Hrun; [rewrite !app_length in Hn; lia|exact P1|exact Hr].
  Qed.

  (** the items with their printed texts *)
  Definition same_text (it : item closure) (it' : item value) : Prop :=
    match it, it' with
    | IField f vc, IField f' v | IExt f vc, IExt f' v =>
        f = f' /\ fst vc = v /\ forall i, snd vc i (Some (fd_kind f)) = fmt v i (Some (fd_kind f))
    | IUnk us, IUnk us' => us = us'
    | _, _ => False
    end.
  Lemma Forall2_flat_map {A A' B B'} (P : A -> A' -> Prop) (Q : B -> B' -> Prop) g g' l l' :
    Forall2 P l l' -> (forall a a', In a l -> P a a' -> Forall2 Q (g a) (g' a')) -> Forall2 Q (flat_map g l) (flat_map g' l').
  Proof.
    intros F H. induction F as [|a a' l l' Ha F IH]; [constructor|]. cbn. apply Forall2_app; [apply H; [left; reflexivity|exact Ha]|].
    apply IH. intros x y Hin. apply H. right. exact Hin.
  Qed.
  Lemma get_value_close fs k : fs_get_value (map (close_slot E t o any) fs) k = option_map (fun v => (v, fun i k' => fmt v i k')) (fs_get_value fs k).
  Proof.
    unfold fs_get_value. induction fs as [|[k' s] fs IH]; cbn [map bt_get]; [reflexivity|]. unfold close_slot at 1. cbn [fst snd].
    destruct (k =? k'); [|exact IH]. destruct s; reflexivity.
  Qed.
  Lemma default_text f i : fdl_ok t f -> fdl_shape t f -> fd_presence f = false ->
    fmt_default E t (fd_default_value t f) (Some (fd_kind f)) = fmt (fd_default_value t f) i (Some (fd_kind f)).
  Proof.
    intros Hf Hsh Hp. unfold fmt_default, fd_default_value. destruct (fd_is_list f) eqn:El; [reflexivity|]. destruct (fd_is_map f) eqn:Em.
    - cbn [fmt_value fmt_scalar map rjoin rbind]. destruct (fs_map _ _ Hsh Em) as (e & kf & vf & k0 & H1 & H2 & H3 & _).
      unfold map_value_kind. rewrite H1, H3. reflexivity.
    - assert (Hs : forall v, scalar v = true -> match fmt_scalar E t v (Some (fd_kind f)) with Some b => Ok b
          | None => match v with VMessage _ => Panic | _ => Ok [91; 93] end end = fmt v i (Some (fd_kind f))).
      { intros v Hv. destruct v; try discriminate Hv; cbn [fmt_value]; destruct (fmt_scalar E t _ _) eqn:Es; try reflexivity; cbn in Es;
          try discriminate Es. destruct (fd_kind f); try discriminate Es. destruct (enum_name E t _ z); discriminate Es. }
      destruct (fd_default f) as [v|] eqn:Ed.
      + apply Hs. pose proof (fo_default _ _ Hf _ Ed) as Hok. destruct v; try reflexivity; destruct (fd_kind f); discriminate Hok.
      + apply Hs. destruct (fd_kind f) as [| | | | | | | | | | | | | | | i' | i' |] eqn:Ek; try reflexivity;
        (rewrite (fo_msg _ _ Hf) in Hp; [discriminate|rewrite Ek; reflexivity|apply not_repeated; assumption]).
  Qed.
  Lemma iter_text d fs : Forall2 same_text
    (fs_iter_gen t fst (closure_default E t) d full idx (map (close_slot E t o any) fs)) (fs_iter t d full idx fs).
  Proof.
    unfold fs_iter, fs_iter_gen. apply Forall2_app.
    - unfold iter_declared. fold (descs t idx d).
      apply Forall2_flat_map with (P := eq).
      + induction (descs t idx d); constructor; auto.
      + intros f f' Hin <-. rewrite get_value_close. destruct (fs_get_value fs (fd_number f)) as [v|]; cbn [option_map].
        * cbn [fst]. destruct (if full then _ else _); constructor; [|constructor]. cbn. auto.
        * destruct (full && negb (fd_presence f)) eqn:Ef; constructor; [|constructor]. cbn.
          split; [reflexivity|]. split; [reflexivity|]. intros i. apply (descs_get t Hwf idx) in Hin.
          apply andb_true_iff in Ef. destruct Ef as [_ Ef]. apply negb_true_iff in Ef. apply default_text; [| |exact Ef].
          -- eapply get_field_ok; eassumption.
          -- eapply find_desc_shape; [exact Hwf|]. unfold find_desc. rewrite Hin. reflexivity.
    - unfold iter_rest. apply Forall2_flat_map with (P := fun a b => a = close_slot E t o any b).
      + clear. induction fs; constructor; auto.
      + intros a [k s] _ ->. unfold close_slot. cbn [fst snd]. destruct s as [|v|us]; cbn [fst snd]; [constructor| |repeat constructor].
        destruct (get_ext t d k) as [x|]; [|constructor]. cbn [fst]. destruct (fd_has t x v); constructor; [|constructor]. cbn. auto.
  Qed.
  Lemma items_text d fs ind : fmt_items t o ind (fs_iter_gen t fst (closure_default E t) d full idx (map (close_slot E t o any) fs))
    = rjoin (separator o ind) (map (fmt_known ind) (known t full idx d fs)).
  Proof.
    unfold fmt_items. cbn [o o_skip_unknown]. f_equal. unfold known.
    pose proof (iter_text d fs) as F. induction F as [|a b l l' Hab F IH]; [reflexivity|].
    destruct a as [f vc|f vc|us]; destruct b as [f' v|f' v|us']; cbn [same_text] in Hab; try contradiction;
      cbn [filter is_unk is_unknown negb map]; rewrite ?IH; try reflexivity.
    - destruct Hab as (<- & <- & Ht'). f_equal. cbn [fmt_item fmt_known fitem item_name]. unfold fmt_known. cbn [fitem item_name]. rewrite Ht'. reflexivity.
    - destruct Hab as (<- & <- & Ht'). f_equal. cbn [fmt_item]. unfold fmt_known. cbn [fitem item_name]. rewrite Ht'.
      destruct (field_value o (fst vc) (fmt (fst vc) ind (Some (fd_kind f)))); try reflexivity. cbn [rbind app]. rewrite <- app_assoc. reflexivity.
  Qed.
  Lemma no_items d fs : forallb (fun it => o_skip_unknown o && is_unk it)
      (fs_iter_gen t fst (closure_default E t) d full idx (map (close_slot E t o any) fs)) = true <-> known t full idx d fs = [].
  Proof.
    unfold known. pose proof (iter_text d fs) as F. induction F as [|a b l l' Hab F IH]; [cbn; tauto|].
    destruct a as [f vc|f vc|us]; destruct b as [f' v|f' v|us']; cbn [same_text] in Hab; try contradiction;
      cbn [forallb is_unk o o_skip_unknown andb filter is_unknown negb]; try (split; discriminate). exact IH.
  Qed.

  Definition msg_fields_read (d : nat) (fs : fieldset) : Prop := forall ind, exists tss,
    Forall2 (fun it ts => exists b, fmt_known ind it = Ok b /\ lexes b ts) (known t full idx d fs) tss /\
    Forall starts_field tss /\
    forall n r, (length (jtoks sep_toks tss) <= n)%nat -> ends_fields r ->
      reads_fields (parse_field t (parse_value t n)) (length tss) (new_msg d) (jtoks sep_toks tss ++ r) (renew_msg (DM d fs)) r.
  Lemma msg_read d fs : msg_ok t (DM d fs) ->
    (forall it f v, is_known t full d fs it f v -> field_reads f v) -> msg_fields_read d fs.
  Proof.
    intros Hm Hf ind.
    assert (HK : Forall (fun it => exists f v, is_known t full d fs it f v) (known t full idx d fs)).
    { apply Forall_forall. intros it Hin. eapply (known_inv t Hwf full idx (DM d fs)); eassumption. }
    destruct (items_read d fs ind (known t full idx d fs) Hm HK) as (tss & F & Hst & Hrun).
    - apply (known_nodup t Hwf full idx (DM d fs) Hm).
    - rewrite Forall_forall in *. intros it Hin. destruct (HK it Hin) as (f & v & K). eapply item_named; eauto.
    - exists tss. split; [exact F|]. split; [exact Hst|]. intros n r Hn Hr.
      rewrite <- (F2_length _ _ _ F). apply (Hrun n (new_msg d) r Hn); [|exact Hr].
      constructor; cbn [new_msg dm_desc dm_fields]; [reflexivity|constructor|discriminate].
  Qed.
  Lemma sep_rjoin ind d fs tss : Forall2 (fun it ts => exists b, fmt_known ind it = Ok b /\ lexes b ts) (known t full idx d fs) tss ->
    exists b, rjoin (separator o ind) (map (fmt_known ind) (known t full idx d fs)) = Ok b /\ lexes b (jtoks sep_toks tss).
  Proof.
    intros F. apply rjoin_lexes; [apply Forall2_mapl, F|intros; now apply separator_lex|apply separator_stops].
  Qed.
  Lemma starts_length tss : Forall starts_field tss -> (length tss <= length (jtoks sep_toks tss))%nat.
  Proof.
    intros H. apply jtoks_length. eapply Forall_impl; [|exact H]. intros [|k ts] Hk; [contradiction|cbn; lia].
  Qed.

  Lemma message_elem d fs k : kind_msg k = Some d -> ok_msg t (DM d fs) = true -> safe (DM d fs) -> msg_fields_read d fs -> elem_reads (VMessage (DM d fs)) k.
  Proof.
    intros Hk Hok Hsafe Hr ind. pose proof (Hany _ Hok Hsafe) as HA. cbn [dm_desc dm_fields] in HA.
    assert (P : forall n tss ts', Forall starts_field tss -> (S (S (length (jtoks sep_toks tss))) <= n)%nat ->
      (forall n r, (length (jtoks sep_toks tss) <= n)%nat -> ends_fields r ->
        reads_fields (parse_field t (parse_value t n)) (length tss) (new_msg d) (jtoks sep_toks tss ++ r) (renewed (DM d fs)) r) ->
      parse_value t n k ((TLBrace :: jtoks sep_toks tss ++ [TRBrace]) ++ ts') = POk (renew (VMessage (DM d fs))) ts').
    { intros n tss ts' Hst Hn Hrun. destruct n as [|n]; [lia|]. cbn [parse_value]. rewrite Hk. cbn [app]. rewrite <- app_assoc. cbn [app message_value].
      rewrite message_loop_reads with (k := length tss) (m' := renewed (DM d fs)) (r := ts').
      - rewrite (renew_message t Hwf full idx ran (DM d fs)). reflexivity.
      - apply Hrun; [lia|exact I].
      - pose proof (starts_length tss Hst). rewrite app_length. cbn [length]. lia. }
    pose (inner := fun i => match any i (DM d fs) with
      | Some r => r
      | None => fmt_items t o i (fs_iter_gen t fst (closure_default E t) d full idx (map (close_slot E t o any) fs)) end).
    assert (Efmt : fmt (VMessage (DM d fs)) ind (Some k) =
      if forallb (fun it => o_skip_unknown o && is_unk it) (fs_iter_gen t fst (closure_default E t) d full idx (map (close_slot E t o any) fs))
      then Ok [123; 125]
      else braces o ind inner).
    { unfold inner. cbn [fmt_value]. change (negb (o_skip_default o)) with (negb (negb full)). rewrite negb_involutive.
      change (o_index_order o) with idx. change (map _ fs) with (map (close_slot E t o any) fs). reflexivity. }
    rewrite Efmt. clear Efmt.
    destruct (forallb _ _) eqn:Ef.
    - apply no_items in Ef. destruct (Hr ind) as (tss & F & Hst & Hrun). rewrite Ef in F. inversion F; subst.
      exists [123; 125], [TLBrace; TRBrace]. split; [reflexivity|]. split.
      { change [123;125] with (123 :: [] ++ [125]). change [TLBrace; TRBrace] with (TLBrace :: [] ++ [TRBrace]).
        apply lexes_punct_before; [|reflexivity|discriminate]. apply lexes_punct_after; [apply lexes_nil|reflexivity|discriminate|].
        intros r. cbn. auto. }
      split; [exact I|]. split; [split; eexists; reflexivity|].
      intros n ts' Hn Hts. apply (P n [] ts'); auto. unfold ItemRound.renewed.
      destruct (ran (DM d fs)) as [m'|]; [destruct HA as [HA _]; destruct (HA Ef)|exact Hrun].
    - assert (Kn : known t full idx d fs <> []) by (intros Kn; apply no_items in Kn; congruence).
      unfold braces. change (o_pretty o) with pretty.
      assert (Q : forall i, exists b tss, inner i = Ok b
        /\ lexes b (jtoks sep_toks tss) /\ Forall starts_field tss /\ forall n r, (length (jtoks sep_toks tss) <= n)%nat -> ends_fields r ->
        reads_fields (parse_field t (parse_value t n)) (length tss) (new_msg d) (jtoks sep_toks tss ++ r) (renewed (DM d fs)) r).
      { intros i. unfold inner, ItemRound.renewed. destruct (ran (DM d fs)) as [m'|].
        - destruct HA as [_ HA]. destruct (HA i) as (b & ts & Eb & L & Hst & Hrun). rewrite Eb. exists b, [ts]. cbn [jtoks length].
          split; [reflexivity|]. split; [exact L|]. split; [constructor; [exact Hst|constructor]|exact Hrun].
        - rewrite (HA Kn i). destruct (Hr i) as (tss & F & Hst & Hrun). destruct (sep_rjoin _ _ _ _ F) as (b & Eb & L).
          exists b, tss. rewrite items_text. auto. }
      assert (S : forall p : bool, exists b tss, (if p
          then let! b := inner (2 + ind)%nat in Ok (123 :: newline (2 + ind) ++ b ++ newline ind ++ [125])
          else let! b := inner ind in Ok (123 :: b ++ [125])) = Ok (123 :: b)
        /\ lexes b (jtoks sep_toks tss ++ [TRBrace]) /\ Forall starts_field tss /\ forall n r, (length (jtoks sep_toks tss) <= n)%nat -> ends_fields r ->
        reads_fields (parse_field t (parse_value t n)) (length tss) (new_msg d) (jtoks sep_toks tss ++ r) (renewed (DM d fs)) r).
      { assert (B : forall b ts, lexes b ts -> lexes (b ++ [125]) (ts ++ [TRBrace])).
        { intros b ts L. apply lexes_punct_after; [exact L|reflexivity|discriminate|]. intros r. cbn. auto. }
        intros p. destruct p.
        - destruct (Q (2 + ind)%nat) as (b & tss & Eb & L & Hst & Hrun). rewrite Eb. cbn [rbind].
          eexists _, tss. split; [reflexivity|]. split; [|auto]. apply lexes_newline.
          intros rest ks Hrest Lr. rewrite <- !app_assoc. apply L; [apply stops_newline|].
          rewrite lex_newline. cbn [app]. apply lex_punct'; [reflexivity|discriminate|exact Lr].
        - destruct (Q ind) as (b & tss & Eb & L & Hst & Hrun). rewrite Eb. cbn [rbind].
          eexists _, tss. split; [reflexivity|]. auto. }
      destruct (S pretty) as (b & tss & Eb & L & Hst & Hrun).
      exists (123 :: b), (TLBrace :: jtoks sep_toks tss ++ [TRBrace]). split; [exact Eb|].
      split; [apply lexes_punct_before; [exact L|reflexivity|discriminate]|].
      split; [exact I|]. split; [split; eexists; reflexivity|].
      intros n ts' Hn Hts. apply P; auto. cbn [length] in Hn. rewrite app_length in Hn. cbn [length] in Hn. lia.
  Qed.

  (** *** Maps *)
  Lemma key_renew key : renew (mk_value key) = mk_value key.
  Proof. destruct key; reflexivity. Qed.
  Lemma key_fmt key i k : fmt (mk_value key) i (Some k) = Ok (fmt_map_key key).
  Proof.
    destruct key; cbn [mk_value fmt_value]; reflexivity.
  Qed.
  Definition entry_msg (e : nat) (key : mapkey) (v : value) : value :=
    VMessage (DM e (bt_set 2 (SVal (renew v)) (bt_set 1 (SVal (mk_value key)) []))).

  Definition entry_text (ind : nat) (vk : option kind) (kv : mapkey * value) : res bytes :=
    if pretty then
      let! x := field_value o (snd kv) (fmt (snd kv) (2 + ind)%nat vk) in
      Ok (123 :: newline (2 + ind) ++ s2b "key: " ++ fmt_map_key (fst kv)
          ++ newline (2 + ind) ++ s2b "value" ++ x ++ newline ind ++ [125])
    else
      let! x := field_value o (snd kv) (fmt (snd kv) ind vk) in
      Ok (s2b "{key:" ++ fmt_map_key (fst kv) ++ s2b ",value" ++ x ++ [125]).

  Lemma entry_text_eq ind vk key v : entry_text ind vk (key, v) =
    if pretty then
      let! x := field_value o v (fmt v (2 + ind)%nat vk) in
      Ok (123 :: newline (2 + ind) ++ s2b "key" ++ 58 :: padding o ++ fmt_map_key key
          ++ newline (2 + ind) ++ s2b "value" ++ x ++ newline ind ++ [125])
    else
      let! x := field_value o v (fmt v ind vk) in
      Ok (123 :: s2b "key" ++ 58 :: padding o ++ fmt_map_key key ++ 44 :: s2b "value" ++ x ++ [125]).
  Proof.
    unfold entry_text. cbn [fst snd]. assert (Hp : padding o = if pretty then [32] else []) by reflexivity. rewrite Hp. clear Hp.
    generalize (field_value o v (fmt v (2 + ind)%nat vk)) (field_value o v (fmt v ind vk)). intros a b.
    destruct pretty; [destruct a|destruct b]; reflexivity.
  Qed.

  Section Entry.
    Variables (e : nat) (kf vf : fdl) (k : kind).
    Hypothesis Hk : kind_msg k = Some e.
    Hypothesis Hkf : entry_key t e = Some kf.
    Hypothesis Hvf : entry_value t e = Some vf.
    Hypothesis Hkr : is_repeated kf = false.
    Hypothesis Hvr : is_repeated vf = false.
    Hypothesis Hkn : find_field t e (s2b "key") = Some kf.
    Hypothesis Hvn : find_field t e (s2b "value") = Some vf.
    Hypothesis Hko : fd_oneof kf = None.
    Hypothesis Hvo : fd_oneof vf = None.

    Lemma not_list d n f : get_field t d n = Some f -> is_repeated f = false -> fd_is_list f = false /\ fd_is_map f = false.
    Proof.
      intros Hf H. split; [|eapply (get_field_map t Hwf); eassumption]. unfold fd_is_list. unfold is_repeated in H. rewrite H. reflexivity.
    Qed.
    Lemma no_oneof_siblings f fs : fd_oneof f = None -> no_siblings f fs.
    Proof. intros H k' (nums & Ho & _). congruence. Qed.

    Lemma entry_reads ind key v : mk_okb (fd_kind kf) key = true -> elem_reads v (fd_kind vf) ->
      exists b ts, entry_text ind (Some (fd_kind vf)) (key, v) = Ok b /\ lexes b ts /\ value_head ts /\
        forall n ts', (length ts <= n)%nat -> parse_value t n k (ts ++ ts') = POk (entry_msg e key v) ts'.
    Proof.
      intros Hmk Hv.
      destruct (not_list _ _ _ Hkf Hkr) as [Hkl Hkm]. destruct (not_list _ _ _ Hvf Hvr) as [Hvl Hvm].
      assert (Nk : fd_number kf = 1) by (eapply get_field_number; [exact Ht|exact Hkf]).
      assert (Nv : fd_number vf = 2) by (eapply get_field_number; [exact Ht|exact Hvf]).
      assert (RK : forall i, named_reads e kf (mk_value key) (s2b "key") i).
      { intros i. eapply field_named; [apply ident_names; [reflexivity|exact Hkn]|].
        apply single_reads; [assumption..|]. apply scalar_elem_reads; [|destruct key; reflexivity]. destruct key; exact Hmk. }
      assert (RV : forall i, named_reads e vf v (s2b "value") i).
      { intros i. eapply field_named; [apply ident_names; [reflexivity|exact Hvn]|]. now apply single_reads. }
      assert (P : forall kts vts n ts', (length (TLBrace :: kts ++ sep_toks ++ vts ++ [TRBrace]) <= n)%nat ->
        starts_field kts -> starts_field vts ->
        (forall n m ts', (length kts <= n)%nat -> follows ts' -> dm_desc m = e -> bt_sorted (dm_fields m) ->
          bt_get (fd_number kf) (dm_fields m) = None -> no_siblings kf (dm_fields m) ->
          parse_field t (parse_value t n) m (kts ++ ts')
          = field_end (MOk (with_fields m (bt_set (fd_number kf) (SVal (renew (mk_value key))) (dm_fields m))) ts')) ->
        (forall n m ts', (length vts <= n)%nat -> follows ts' -> dm_desc m = e -> bt_sorted (dm_fields m) ->
          bt_get (fd_number vf) (dm_fields m) = None -> no_siblings vf (dm_fields m) ->
          parse_field t (parse_value t n) m (vts ++ ts')
          = field_end (MOk (with_fields m (bt_set (fd_number vf) (SVal (renew v)) (dm_fields m))) ts')) ->
        parse_value t n k ((TLBrace :: kts ++ sep_toks ++ vts ++ [TRBrace]) ++ ts') = POk (entry_msg e key v) ts').
      { intros kts vts n ts' Hn Sk Sv HK HV. cbn [length] in Hn. rewrite !app_length in Hn. cbn [length] in Hn.
        destruct n as [|n]; [lia|]. cbn [parse_value]. rewrite Hk. cbn [app]. rewrite <- !app_assoc. cbn [app message_value].
        assert (Sv' : starts_field (vts ++ TRBrace :: ts')) by (destruct vts as [|a vts]; [contradiction|exact Sv]).
        erewrite message_loop_reads with (k := 2%nat) (r := ts'); [reflexivity| |].
        - eapply rf_cons.
          + destruct kts as [|a kts]; [contradiction|exact Sk].
          + rewrite HK; [apply sep_end, Sv'|lia|apply sep_follows, Sv'|reflexivity|constructor|reflexivity|now apply no_oneof_siblings].
          + eapply rf_cons; [exact Sv'| |].
            * rewrite HV; [apply end_end; exact I|lia|exact I|reflexivity| | |now apply no_oneof_siblings].
              -- apply bt_set_sorted. constructor.
              -- cbn [with_fields new_msg dm_fields]. rewrite Nv, Nk. reflexivity.
            * cbn [with_fields new_msg dm_fields dm_desc]. rewrite key_renew, Nk, Nv. constructor.
        - rewrite !app_length. cbn [length].
          assert (1 <= length kts)%nat by (destruct kts; [contradiction|cbn; lia]).
          assert (1 <= length vts)%nat by (destruct vts; [contradiction|cbn; lia]). lia. }
      assert (Tx : forall p : bool, exists b kts vts, (if p then
            let! x := field_value o v (fmt v (2 + ind)%nat (Some (fd_kind vf))) in
            Ok (123 :: newline (2 + ind) ++ s2b "key" ++ 58 :: padding o ++ fmt_map_key key
                ++ newline (2 + ind) ++ s2b "value" ++ x ++ newline ind ++ [125])
          else
            let! x := field_value o v (fmt v ind (Some (fd_kind vf))) in
            Ok (123 :: s2b "key" ++ 58 :: padding o ++ fmt_map_key key ++ 44 :: s2b "value" ++ x ++ [125])) = Ok b /\
          lexes b (TLBrace :: kts ++ (if p then [] else [TComma]) ++ vts ++ [TRBrace]) /\ starts_field kts /\ starts_field vts /\
          (forall n m ts', (length kts <= n)%nat -> follows ts' -> dm_desc m = e -> bt_sorted (dm_fields m) ->
          bt_get (fd_number kf) (dm_fields m) = None -> no_siblings kf (dm_fields m) ->
          parse_field t (parse_value t n) m (kts ++ ts')
          = field_end (MOk (with_fields m (bt_set (fd_number kf) (SVal (renew (mk_value key))) (dm_fields m))) ts')) /\
          (forall n m ts', (length vts <= n)%nat -> follows ts' -> dm_desc m = e -> bt_sorted (dm_fields m) ->
          bt_get (fd_number vf) (dm_fields m) = None -> no_siblings vf (dm_fields m) ->
          parse_field t (parse_value t n) m (vts ++ ts')
          = field_end (MOk (with_fields m (bt_set (fd_number vf) (SVal (renew v)) (dm_fields m))) ts'))).
      { intros p. pose (i := if p then (2 + ind)%nat else ind).
        destruct (RK i) as (kb & kts & Ekb & Lk & Sk & HK). destruct (RV i) as (vb & vts & Evb & Lv & Sv & HV).
        assert (Ekb' : kb = s2b "key" ++ 58 :: padding o ++ fmt_map_key key).
        { rewrite key_fmt in Ekb. unfold field_value in Ekb. cbn [rbind] in Ekb. injection Ekb as <-. destruct key; reflexivity. }
        destruct (field_value o v (fmt v i (Some (fd_kind vf)))) as [x| | |] eqn:Ex; cbn [rbind] in Evb; try discriminate.
        assert (Evb' : vb = s2b "value" ++ x) by congruence. clear Evb Ekb.
        destruct p; unfold i in Ex; rewrite Ex; cbn [rbind].
        - exists (123 :: newline (2 + ind) ++ kb ++ newline (2 + ind) ++ vb ++ newline ind ++ [125]), kts, vts.
          split; [rewrite Ekb', Evb'; f_equal; f_equal; f_equal; rewrite <- !app_assoc; cbn [app]; rewrite <- !app_assoc; reflexivity|].
          split; [|auto]. apply lexes_punct_before; [|reflexivity|discriminate]. apply lexes_newline.
          intros rest ks Hr Lr. cbn [app]. rewrite <- !app_assoc. apply Lk; [apply stops_newline|]. rewrite lex_newline.
          apply Lv; [apply stops_newline|]. rewrite lex_newline. cbn [app]. apply lex_punct'; [reflexivity|discriminate|exact Lr].
        - exists (123 :: kb ++ 44 :: vb ++ [125]), kts, vts.
          split; [rewrite Ekb', Evb'; f_equal; f_equal; rewrite <- !app_assoc; cbn [app]; rewrite <- !app_assoc; reflexivity|].
          split; [|auto]. apply lexes_punct_before; [|reflexivity|discriminate].
          intros rest ks Hr Lr. rewrite <- !app_assoc. apply Lk; [cbn; auto|]. cbn [app]. apply lex_punct'; [reflexivity|discriminate|].
          rewrite <- !app_assoc. apply Lv; [cbn; auto|]. cbn [app]. apply lex_punct'; [reflexivity|discriminate|exact Lr]. }
      destruct (Tx pretty) as (b & kts & vts & Eb & L & Sk & Sv & HK & HV).
      exists b, (TLBrace :: kts ++ sep_toks ++ vts ++ [TRBrace]). split.
      { etransitivity; [|exact Eb]. apply entry_text_eq. }
      split; [exact L|]. split; [exact I|]. intros n ts' Hn. now apply P.
    Qed.
  End Entry.

  Lemma unpack_entry e kf vf key v : entry_key t e = Some kf -> entry_value t e = Some vf ->
    unpack t (entry_msg e key v) = UEntry key (renew v).
  Proof.
    intros Hkf Hvf. unfold unpack, entry_msg, get_field_by_number. cbn [dm_desc].
    change (get_field t e MAP_KEY_NUMBER) with (entry_key t e). change (get_field t e MAP_VALUE_NUMBER) with (entry_value t e).
    rewrite Hkf, Hvf. cbn [option_map]. unfold get_field_value, fs_get, fs_get_value. cbn [dm_fields].
    rewrite (get_field_number _ _ _ _ Ht Hkf), (get_field_number _ _ _ _ Ht Hvf). cbn. destruct key; reflexivity.
  Qed.
  Lemma insert_entries e kf vf put : entry_key t e = Some kf -> entry_value t e = Some vf ->
    forall kvs done ts, keys_nodupb kvs = true ->
    (forall k, existsb (fun kv => mk_eqb k (fst kv)) kvs = true -> existsb (fun kv => mk_eqb k (fst kv)) done = false) ->
    insert_all t put done (map (fun kv => entry_msg e (fst kv) (snd kv)) kvs) ts
    = MOk (put (done ++ map (fun kv => (fst kv, renew (snd kv))) kvs)) ts.
  Proof.
    intros Hkf Hvf. induction kvs as [|[key v] kvs IH]; intros done ts Hn Hfr; cbn [map insert_all fst snd].
    - rewrite app_nil_r. reflexivity.
    - rewrite (unpack_entry _ _ _ _ _ Hkf Hvf). rewrite map_insert_fresh.
      + cbn [keys_nodupb] in Hn. apply andb_true_iff in Hn. destruct Hn as [Hk Hn]. apply negb_true_iff in Hk.
        rewrite IH; [rewrite <- app_assoc; reflexivity|exact Hn|]. intros k' Hk'. rewrite existsb_app. cbn [existsb fst].
        rewrite orb_false_r. apply orb_false_iff. split.
        * apply Hfr. cbn [existsb fst]. rewrite Hk'. apply orb_true_r.
        * destruct (mk_eqb k' key) eqn:Ee; [|reflexivity]. apply mk_eqb_eq in Ee. subst k'. rewrite Hk in Hk'. discriminate.
      + apply Hfr. cbn [existsb fst]. rewrite (proj2 (mk_eqb_eq _ _) eq_refl). reflexivity.
  Qed.

  Lemma map_reads f e kf vf kvs : fd_is_list f = false -> fd_is_map f = true -> kind_msg (fd_kind f) = Some e ->
    entry_key t e = Some kf -> entry_value t e = Some vf -> is_repeated kf = false -> is_repeated vf = false ->
    find_field t e (s2b "key") = Some kf -> find_field t e (s2b "value") = Some vf -> fd_oneof kf = None -> fd_oneof vf = None ->
    keys_nodupb kvs = true ->
    Forall (fun kv => mk_okb (fd_kind kf) (fst kv) = true /\ elem_reads (snd kv) (fd_kind vf)) kvs ->
    field_reads f (VMap kvs).
  Proof.
    intros Hl Hm Hk Hkf Hvf Hkr Hvr Hkn Hvn Hko Hvo Hnd F ind.
    assert (C : exists tss, Forall2 (fun kv ts => (exists b, entry_text ind (Some (fd_kind vf)) kv = Ok b /\ lexes b ts) /\ value_head ts /\
      forall n ts', (length ts <= n)%nat -> parse_value t n (fd_kind f) (ts ++ ts') = POk (entry_msg e (fst kv) (snd kv)) ts') kvs tss).
    { apply Forall2_choose. eapply Forall_impl; [|exact F]. intros [key v] [Hmk Hv]. cbn [fst snd] in *.
      destruct (entry_reads e kf vf (fd_kind f) Hk Hkf Hvf Hkr Hvr Hkn Hvn Hko Hvo ind key v Hmk Hv) as (b & ts & H1 & H2 & H3 & H4).
      exists ts. eauto. }
    destruct C as (tss & C).
    destruct (list_text (map (entry_text ind (Some (fd_kind vf))) kvs) tss) as (b & Eb & L).
    { apply Forall2_mapl. eapply Forall2_imp; [|exact C]. intros kv ts (H & _). exact H. }
    exists b, (TLBrack :: jtoks [TComma] tss ++ [TRBrack]).
    split.
    { etransitivity; [|exact Eb]. cbn [fmt_value]. unfold map_value_kind. rewrite Hk, Hvf. reflexivity. }
    split; [exact L|]. split; [exact I|].
    intros n m ts' Hn Hts Hso Hb Hsib. unfold field_value_in. rewrite Hl, Hm.
    cbn [app]. rewrite <- app_assoc. cbn [app].
    rewrite (repeated_reads (parse_value t n) (fd_kind f) (map (fun kv => entry_msg e (fst kv) (snd kv)) kvs) tss).
    - cbn [mbind]. rewrite get_mut_fresh by assumption. unfold fd_default_value. rewrite Hl, Hm.
      rewrite (insert_entries e kf vf) by (try assumption; reflexivity). cbn [app]. rewrite put_fresh by assumption. reflexivity.
    - apply Forall2_mapl.
      assert (B : Forall (fun ts => (length ts <= n)%nat) tss).
      { apply Forall_forall. intros ts Hin. pose proof (jtoks_elem [TComma] tss ts Hin). cbn [length] in Hn. rewrite app_length in Hn. lia. }
      clear - C B. revert B. induction C as [|v ts l tss (_ & _ & H) C IH]; intros B; constructor.
      + intros ts' Hts. apply H. inversion B; assumption.
      + apply IH. inversion B; assumption.
    - eapply Forall2_r; [exact C|]. intros v ts _ (_ & H & _). exact H.
  Qed.

  (** *** All values *)
  Hypothesis Hzero : full = true -> reads32 E 0 = true /\ reads64 E 0 = true.

  Definition value_reads (v : value) : Prop := floats_back E v = true -> each_message safe v ->
    (forall k, ok_elem t v k = true -> elem_reads v k) /\
    (forall d n f, find_desc t d n = Some f -> ok_field t f v = true -> field_reads f v).

  Lemma elem_field v : floats_back E v = true -> plain v = true -> (forall k, ok_elem t v k = true -> elem_reads v k) ->
    forall d n f, find_desc t d n = Some f -> ok_field t f v = true -> field_reads f v.
  Proof.
    intros _ Hp He d n f _ Hok. rewrite ok_field_plain in Hok by exact Hp. rewrite !andb_true_iff, !negb_true_iff in Hok.
    destruct Hok as [[Hl Hm] Hok]. apply single_reads; auto.
  Qed.
  Lemma scalar_reads v : scalar v = true -> value_reads v.
  Proof.
    intros Hs Hf _.
    assert (He : forall k, ok_elem t v k = true -> elem_reads v k).
    { intros k Hok. apply scalar_elem_reads; [destruct v; try discriminate Hs; exact Hok|destruct v; try discriminate Hs; exact Hf]. }
    split; [exact He|]. apply elem_field; auto. destruct v; try discriminate Hs; reflexivity.
  Qed.
  Lemma default_reads d f : get_field t d (fd_number f) = Some f -> fd_presence f = false -> full = true -> field_reads f (fd_default_value t f).
  Proof.
    intros Hf Hp Hfull. pose proof (get_field_ok _ _ _ _ Ht Hf) as Hfo.
    assert (Hfd : find_desc t d (fd_number f) = Some f) by (unfold find_desc; rewrite Hf; reflexivity).
    pose proof (find_desc_shape _ _ _ _ Hwf Hfd) as Hsh.
    unfold fd_default_value. destruct (fd_is_list f) eqn:El; [apply list_reads; [exact El|constructor]|].
    destruct (fd_is_map f) eqn:Em.
    - destruct (fs_map _ _ Hsh Em) as (e & kf & vf & k0 & H1 & H2 & H3 & H4 & H5 & H6).
      destruct (Hentry _ _ _ _ _ _ Hfd Em H1 H2 H3) as (H7 & H8 & H9 & H10).
      eapply map_reads; eauto.
    - rewrite (Hdp _ _ _ Hf Hp). apply single_reads; auto. apply scalar_elem_reads.
      + apply kind_default_sc; [apply (fo_kind _ _ Hfo)|]. destruct (is_msg_kind (fd_kind f)) eqn:Ek; [|reflexivity].
        rewrite (fo_msg _ _ Hfo Ek) in Hp by (apply not_repeated; assumption). discriminate.
      + destruct (fd_kind f); try reflexivity; apply Hzero, Hfull.
  Qed.
  Lemma slots_read d fs : msg_ok t (DM d fs) -> floats_back E (VMessage (DM d fs)) = true -> each_message safe (VMessage (DM d fs)) ->
    Forall (fun kv => slot_all value_reads (snd kv)) fs -> msg_fields_read d fs.
  Proof.
    intros Hm Hf [_ Hs] IH. rewrite all_and, Forall_forall in Hs. apply msg_read; [exact Hm|]. intros it f v K.
    pose proof (known_ok t Hwf full (DM d fs) it f v Hm K) as Hok. pose proof (ik_desc _ _ _ _ _ _ _ K) as Hd.
    pose proof (ik_val _ _ _ _ _ _ _ K) as Hv. unfold fs_get, fs_get_value in Hv.
    destruct (bt_get (fd_number f) fs) as [[|w|us]|] eqn:Eb.
    2: { subst w. apply bt_get_In in Eb. rewrite Forall_forall in IH. specialize (IH _ Eb). cbn [snd slot_all] in IH.
         cbn [floats_back] in Hf. rewrite forallb_forall in Hf. specialize (Hf _ Eb). cbn [snd] in Hf.
         specialize (Hs _ Eb). cbn [snd] in Hs. destruct (IH Hf Hs) as [_ H]. eapply H; eauto. }
    all: subst v; destruct (ik_why _ _ _ _ _ _ _ K) as [W|(W1 & W2 & W3)];
      [unfold fs_has, fs_get_value in W; rewrite Eb in W; discriminate|eapply default_reads; eassumption].
  Qed.
  Lemma all_read v : value_reads v.
  Proof.
    induction v as [b|z|z|n|n|n|n|s|s|z|d fs IH|vs IH|kvs IH] using value_ind'; try (apply scalar_reads; reflexivity).
    - intros Hf Hs.
      assert (He : forall k, ok_elem t (VMessage (DM d fs)) k = true -> elem_reads (VMessage (DM d fs)) k).
      { intros k Hok. rewrite ok_elem_msg in Hok. destruct (kind_msg k) as [i|] eqn:Ek; [|discriminate].
        apply andb_true_iff in Hok. destruct Hok as [Hd Hok]. apply Nat.eqb_eq in Hd. cbn [dm_desc] in Hd. subst i.
        apply message_elem; [exact Ek|exact Hok|apply Hs|]. apply slots_read; [now apply ok_msg_iff|exact Hf|exact Hs|exact IH]. }
      split; [exact He|]. apply elem_field; auto.
    - intros Hf Hs. cbn [floats_back] in Hf. cbn [each_message] in Hs. rewrite all_and in Hs. split; [intros k Hk; discriminate Hk|]. intros d n f Hd Hok. cbn [ok_field] in Hok.
      apply andb_true_iff in Hok. destruct Hok as [Hl Hok]. apply list_reads; [exact Hl|].
      rewrite Forall_forall in *. rewrite forallb_forall in *. intros v Hin. apply (IH v Hin (Hf v Hin) (Hs v Hin)). auto.
    - intros Hf Hs. cbn [floats_back] in Hf. cbn [each_message] in Hs. rewrite all_and in Hs. split; [intros k Hk; discriminate Hk|]. intros d n f Hd Hok. cbn [ok_field] in Hok.
      destruct (kind_msg (fd_kind f)) as [e|] eqn:Ek; [|discriminate]. destruct (fd_is_map f) eqn:Em; [|discriminate].
      destruct (entry_key t e) as [kf|] eqn:Ekf; [|discriminate]. destruct (entry_value t e) as [vf|] eqn:Evf; [|discriminate].
      apply andb_true_iff in Hok. destruct Hok as [Hnd Hok].
      destruct (fs_map _ _ (find_desc_shape _ _ _ _ Hwf Hd) Em) as (e' & kf' & vf' & k0 & H1 & H2 & H3 & H4 & H5 & H6).
      rewrite Ek in H1. injection H1 as <-. rewrite Ekf in H2. injection H2 as <-. rewrite Evf in H3. injection H3 as <-.
      destruct (Hentry _ _ _ _ _ _ Hd Em Ek Ekf Evf) as (H7 & H8 & H9 & H10).
      eapply map_reads; eauto.
      + destruct (fd_is_list f) eqn:El; [|reflexivity]. exfalso. unfold fd_is_list in El. rewrite Em in El. cbn in El. rewrite andb_false_r in El. discriminate.
      + rewrite Forall_forall in *. rewrite forallb_forall in *. intros kv Hin. specialize (Hok _ Hin). apply andb_true_iff in Hok.
        destruct Hok as [Hok1 Hok2]. split; [exact Hok1|]. apply (IH kv Hin (Hf kv Hin) (Hs kv Hin)). exact Hok2.
  Qed.

  (** the whole message *)
  Theorem text_reads m : ok_msg t m = true -> floats_back E (VMessage m) = true -> each_message safe (VMessage m) -> any 0%nat m = None ->
    exists b, fmt_message E t o any 0 m = Ok b /\ parse_text t (dm_desc m) b = MOk (renew_msg m) [].
  Proof.
    intros Hm Hf Hs An. destruct m as [d fs]. apply ok_msg_iff in Hm. cbn [dm_desc].
    assert (R : msg_fields_read d fs).
    { apply slots_read; [exact Hm|exact Hf|exact Hs|]. apply Forall_forall. intros [k s] _. destruct s; cbn; auto. apply all_read. }
    destruct (R 0%nat) as (tss & F & Hst & Hrun). destruct (sep_rjoin _ _ _ _ F) as (b & Eb & L).
    exists b. split.
    - unfold fmt_message. rewrite An. cbn [dm_desc dm_fields].
      change (negb (o_skip_default o)) with (negb (negb full)). rewrite negb_involutive. change (o_index_order o) with idx.
      rewrite items_text. exact Eb.
    - unfold parse_text, merge_text. specialize (L [] [] I eq_refl). rewrite app_nil_r in L. rewrite L, app_nil_r.
      unfold merge_tokens. eapply fields_loop_reads.
      + specialize (Hrun (length (jtoks sep_toks tss)) [] (le_n _) I). rewrite app_nil_r in Hrun. exact Hrun.
      + pose proof (starts_length tss Hst). lia.
  Qed.
  Theorem any_text_reads m m' : any_reads m m' ->
    exists b, fmt_message E t o any 0 m = Ok b /\ parse_text t (dm_desc m) b = MOk m' [].
  Proof.
    intros R. destruct (R 0%nat) as (b & ts & Eb & L & Hst & Hrun). exists b. split.
    - unfold fmt_message. rewrite Eb. reflexivity.
    - unfold parse_text, merge_text. specialize (L [] [] I eq_refl). rewrite app_nil_r in L. rewrite L, app_nil_r.
      unfold merge_tokens. eapply fields_loop_reads.
      + specialize (Hrun (length ts) [] (le_n _) I). rewrite app_nil_r in Hrun. exact Hrun.
      + destruct ts; [destruct Hst|cbn; lia].
  Qed.
End TextRound.
