(** C58: custom options.  Options that a file holds uninterpreted are resolved
    when the file is added, and the options() getters show them. *)
From Coq Require Import String.
From Verif Require Import Base BaseProofs Wire WireProofs Unknown Value Descr Fields Codec DescrOk DescrProofs MergeProofs Float TextFormat TextParse
  Proto Build BuildFrame BuildInv PoolFacts DepthProofs RoundSpec RoundMain RoundProofs LenProofs Options Prop_Options Prop_Declared EventProofs BuildResolve DeclSpec DeclProofs ExampleFiles SaneSpec BridgeProofs Prop_Bridge
  Prop_TextSafe Prop_Round OptResolve OptSpec OptProofs OptPlaces OptPass.
Open Scope list_scope.
Open Scope N_scope.

(** ** Pools built from files meet what the theorems below ask for *)
Theorem C58_pools_ready X X' g p :
  search_ok X -> floats_ok X -> grown X p -> Forall typed_file (pool_files p) -> Forall protoc_file (pool_files p) ->
  text_saneb (p_tables p) = true ->
  search_ok X' -> floats_ok X' -> grown X' g -> Forall typed_file (pool_files g) -> Forall protoc_file (pool_files g) ->
  text_saneb (p_tables g) = true ->
  (forall ty, In ty option_types -> get_message_by_name g ty <> None) ->
  ready g p.
Proof.
  intros SO FL G TY PF TS SO' FL' G' TY' PF' TS' HT.
  pose proof (reachable_Inv _ _ SO (grown_reachable _ _ G)) as I. pose proof (reachable_Inv _ _ SO' (grown_reachable _ _ G')) as I'.
  assert (forall X q ty d, Inv X q -> get_message_by_name q ty = Some d -> (d < length (p_messages q))%nat) as Lm.
  { clear. intros X q ty d I H. unfold get_message_by_name in H. destruct (get_by_name q ty) as [[fl pt [| i|i|i|i|i|i|i|i]]|] eqn:E; try discriminate.
    injection H as <-. assert (exists n, assoc_s n (p_names q) = Some (Def fl pt (DMessage i))) as [n A].
    { unfold get_by_name in E. destruct ty as [|c r]; [eauto|]. destruct (c =? dot); eauto. }
    destruct (lookup_event X q n _ I A ltac:(discriminate)) as (e & it & He & _ & _ & Ed).
    pose proof (event_index X q e I He) as B. destruct e; cbn in Ed; try discriminate. injection Ed as _ _ ->. apply B. }
  constructor.
  - intros [|]; (split; [|assumption]); [exact (C57_pools_are_wf X p SO FL G TY PF)|exact (C57_pools_are_wf X' g SO' FL' G' TY' PF')].
  - intros n d A. assert (d_kind d = DPackage \/ d_kind d <> DPackage) as [K|K] by (destruct (d_kind d); auto; right; discriminate).
    + split; [|rewrite K; discriminate]. apply assoc_s_In in A. destruct (iv_pkg1 _ _ I _ _ A K) as (path & i & f & He & _ & <-).
      exact (event_index X p _ I He).
    + destruct (lookup_event X p n d I A K) as (e & it & He & Hi & _ & ->). pose proof (event_index X p e I He) as B.
      destruct e; cbn in *; try discriminate; (split; [apply B|]); intros j Hj; try discriminate. injection Hj as ->. apply B.
  - intros i x Hx. rewrite (C55_extension_lists X p _ SO G (ext_extendee X p i x I Hx)). apply in_map. apply filter_In. split; [eapply nth_error_In; exact Hx|].
    apply Nat.eqb_refl.
  - intros own ty d H. unfold options_message in H. destruct (get_message_by_name p ty) as [d0|] eqn:E.
    + injection H as <- <-. cbn. exact (Lm X p ty d0 I E).
    + destruct (get_message_by_name g ty) as [d0|] eqn:E'; [|discriminate]. injection H as <- <-. cbn. exact (Lm X' g ty d0 I' E').
  - intros ty Hty. unfold options_message. destruct (get_message_by_name p ty); [discriminate|]. specialize (HT ty Hty).
    destruct (get_message_by_name g ty); [discriminate|congruence].
Qed.
Print Assumptions C58_pools_ready.

(** ** The pass over the files *)

(** Adding files, with pools like that, either rejects them, because the options
    somewhere cannot be interpreted; or replaces the options everywhere by the
    bytes of what they mean ([resolved], OptSpec.v), leaving no uninterpreted ones
    and nothing else changed; or, because the typed decoder rejects such bytes,
    panics.  Options stand where descriptor.proto says ([stands]), and the
    locations to be renamed are those of the options interpreted. *)
Theorem C58_interpreted g p typed o fs raw : ready g p -> raw_ok raw -> (of_file o + length fs <= length (p_files p))%nat ->
  match resolve_options g typed p o fs raw with
  | Ok (inl es) => es <> [] /\ exists file path ty s encoded us, stands (of_file o) fs file path ty s /\ raw file path = Some (encoded, us) /\
      forall m b ls, ~ resolved g p file path ty s encoded us m b ls
  | Ok (inr (raw', locs)) =>
      (forall file path ty s encoded us, stands (of_file o) fs file path ty s -> raw file path = Some (encoded, us) ->
         exists m b ls, resolved g p file path ty s encoded us m b ls /\ typed ty b = true /\ raw' file path = Some (b, []) /\
           incl (map (fun l => (file, fst l, snd l)) ls) locs) /\
      (forall file path, (forall ty s, ~ stands (of_file o) fs file path ty s) \/ raw file path = None -> raw' file path = raw file path) /\
      (forall x, In x locs -> exists file path ty s encoded us m b ls, stands (of_file o) fs file path ty s /\ raw file path = Some (encoded, us) /\
         resolved g p file path ty s encoded us m b ls /\ In x (map (fun l => (file, fst l, snd l)) ls))
  | Panic => exists file path ty s encoded us m b ls, stands (of_file o) fs file path ty s /\ raw file path = Some (encoded, us) /\
      resolved g p file path ty s encoded us m b ls /\ typed ty b = false
  | Err _ | Fuel => False
  end.
Proof.
  intros R Hr Hl. pose proof (pass_spec g p typed o fs raw R Hr Hl) as H. destruct (resolve_options g typed p o fs raw) as [[es|[raw' locs]]| | |]; [|exact H..].
  destruct H as (e & es' & file & path & ty & s & encoded & us & -> & S & E & _ & N). split; [discriminate|]. exists file, path, ty, s, encoded, us. auto.
Qed.
Print Assumptions C58_interpreted.

(** Options mean one thing. *)
Theorem C58_one_meaning g p file path ty s encoded us m b l m' b' l' : ready g p -> (file < length (p_files p))%nat ->
  bytes_ok encoded -> Forall uoption_ok us ->
  resolved g p file path ty s encoded us m b l -> resolved g p file path ty s encoded us m' b' l' -> m = m' /\ b = b' /\ l = l'.
Proof. intros R. apply resolved_fun. exact R. Qed.
Print Assumptions C58_one_meaning.

(** options() then shows what they mean, if that is not nested deeper than 100. *)
Theorem C58_read_back g p file path ty s encoded us m b ls : ready g p -> (file < length (p_files p))%nat ->
  bytes_ok encoded -> Forall uoption_ok us -> resolved g p file path ty s encoded us m b ls ->
  exists own d, options_message g p ty = Some (own, d) /\
    let t := options_tables g p own in
    ok_msg t m = true /\ dm_desc m = d /\
    (zeros_kept_msg t m = true -> (msg_depth m <= 100)%nat -> N.of_nat (length b) < 2 ^ 64 ->
     exists m', get_options g p ty (Some b) = Ok (t, m') /\ same_msg t m m').
Proof.
  intros R Fl Hb Ho H. destruct (resolved_ok g p file path ty s encoded us m b ls R Fl Hb Ho H) as (own & d & E & Hm & Hd & He).
  exists own, d. split; [exact E|]. split; [exact Hm|]. split; [exact Hd|]. intros Hz Hn Hl.
  destruct (C02_round_trip _ m (proj1 (rd_sane _ _ R own)) Hm Hz Hn) as (b' & He' & Q). rewrite He in He'. injection He' as <-.
  destruct (Q Hl) as (m' & Hd' & Hs). exists m'. split; [|exact Hs]. unfold get_options. rewrite E, <- Hd, Hd'. reflexivity.
Qed.
Print Assumptions C58_read_back.

(** Without uninterpreted options the meaning is the message the bytes hold. *)
Theorem C58_nothing_to_interpret g p file path ty s encoded m b ls :
  resolved g p file path ty s encoded [] m b ls ->
  ls = [] /\ exists own d m0, options_message g p ty = Some (own, d) /\ msg_decode (options_tables g p own) d encoded = Ok m0 /\
    m = clear_field_by_number (options_tables g p own) m0 999.
Proof.
  intros (own & d & m0 & m1 & paths & E & D & I & M & B & L). inversion I; subst. split; [reflexivity|]. exists own, d, m1. auto.
Qed.
Print Assumptions C58_nothing_to_interpret.

(** ** Locations *)

(** the renamings of one file *)
Definition of_this_file (file : nat) (locs : list (nat * list Z * list Z)) : list (list Z * list Z) :=
  map (fun x => (snd (fst x), snd x)) (filter (fun x => (fst (fst x) =? file)%nat) locs).

Lemma moved_in path : forall paths i from to, In (from, to) (moved path i paths) <->
  exists k q, nth_error paths k = Some q /\ from = path ++ [999%Z; Z.of_nat (i + k)] /\ to = path ++ q.
Proof.
  induction paths as [|q paths IH]; intros i from to; cbn [moved In].
  - split; [intros []|]. intros ([|k] & q & H & _); discriminate H.
  - rewrite IH. split.
    + intros [[= <- <-]|(k & r & H & -> & ->)].
      * exists 0%nat, q. rewrite Nat.add_0_r. auto.
      * exists (S k), r. split; [exact H|]. split; [|reflexivity]. do 3 f_equal. lia.
    + intros ([|k] & r & H & -> & ->).
      * left. injection H as <-. rewrite Nat.add_0_r. reflexivity.
      * right. exists k, r. split; [exact H|]. split; [|reflexivity]. do 3 f_equal. lia.
Qed.
Lemma interprets_path p t own scope file o parts m m' path : interprets p t own scope file o parts m m' path -> path <> [].
Proof. intros H. inversion H; discriminate. Qed.
Lemma interpreted_paths p t own scope file us : forall m m' paths, interpreted p t own scope file us m m' paths -> forall q, In q paths -> q <> [].
Proof.
  induction us as [|u us IH]; intros m m' paths H q Hq; inversion H; subst; [destruct Hq|].
  destruct Hq as [<-|Hq]; [eapply interprets_path; eassumption|eapply IH; eassumption].
Qed.

(** After the pass, a location of an option as written, or inside it, is a
    location of the field it sets; other locations stay as they are.  (No option
    may set the field of the uninterpreted options itself.) *)
Theorem C58_locations g p typed o fs raw raw' locs : ready g p -> raw_ok raw -> (of_file o + length fs <= length (p_files p))%nat ->
  resolve_options g typed p o fs raw = Ok (inr (raw', locs)) ->
  (forall file path ty s encoded us m b ls, stands (of_file o) fs file path ty s -> raw file path = Some (encoded, us) ->
     resolved g p file path ty s encoded us m b ls -> forall from rest, ~ In (from, path ++ 999%Z :: rest) ls) ->
  forall file, let rename q := rename_locations (of_this_file file locs) [q] in
  (forall path ty s encoded us m b ls from to rest, stands (of_file o) fs file path ty s -> raw file path = Some (encoded, us) ->
     resolved g p file path ty s encoded us m b ls -> In (from, to) ls -> rename (from ++ rest) = [to ++ rest]) /\
  (forall q, (forall path ty s encoded us i rest, stands (of_file o) fs file path ty s -> raw file path = Some (encoded, us) ->
                q = path ++ 999%Z :: Z.of_nat i :: rest -> (i >= length us)%nat) ->
     rename q = [q]).
Proof.
  intros R Hraw Hlen E H999 file. cbv zeta. pose proof (pass_spec g p typed o fs raw R Hraw Hlen) as S. rewrite E in S. destruct S as (S1 & _ & S3).
  assert (forall file path ty s, stands (of_file o) fs file path ty s -> (file < length (p_files p))%nat) as Lt.
  { clear - Hlen. intros file path ty s (k & f & H & -> & _). assert (k < length fs)%nat by (apply nth_error_Some; congruence). lia. }
  (* every renaming is one of an option *)
  assert (forall from to, In (from, to) (of_this_file file locs) -> exists path ty s encoded us m b ls paths k q, stands (of_file o) fs file path ty s /\
            raw file path = Some (encoded, us) /\ resolved g p file path ty s encoded us m b ls /\ ls = moved path 0 paths /\
            nth_error paths k = Some q /\ from = path ++ [999%Z; Z.of_nat k] /\ to = path ++ q /\ (k < length us)%nat /\
            (exists n r, q = n :: r /\ n <> 999%Z)) as Src.
  { intros from to Hin. unfold of_this_file in Hin. apply in_map_iff in Hin. destruct Hin as ([[fl a] c] & Ep & Hin). cbn in Ep. injection Ep as -> ->.
    apply filter_In in Hin. destruct Hin as [Hin Ef]. cbn in Ef. apply Nat.eqb_eq in Ef. subst fl.
    destruct (S3 _ Hin) as (f1 & path & ty & s & encoded & us & m & b & ls & St & Er & Rs & Hx). apply in_map_iff in Hx. destruct Hx as ([a c] & Ep & Hx).
    cbn in Ep. injection Ep as -> -> ->. destruct Rs as (own & d & m0 & m1 & paths & E0 & D0 & I0 & M0 & B0 & L0).
    subst ls. pose proof (proj1 (moved_in path paths 0 from to) Hx) as (k & q & Hk & -> & ->). cbn in Hx |- *.
    exists path, ty, s, encoded, us, m, b, (moved path 0 paths), paths, k, q. split; [exact St|]. split; [exact Er|].
    split; [exists own, d, m0, m1, paths; auto 10|]. split; [reflexivity|]. split; [exact Hk|]. split; [reflexivity|]. split; [reflexivity|]. split.
    - assert (length paths = length us) as <-; [|apply nth_error_Some; congruence]. clear - I0. induction I0; cbn; congruence.
    - pose proof (interpreted_paths _ _ _ _ _ _ _ _ _ I0 q (nth_error_In _ _ Hk)) as Hq. destruct q as [|n r]; [contradiction|]. exists n, r. split; [reflexivity|].
      intros ->. eapply (H999 file path ty s encoded us m b (moved path 0 paths) St Er); [exists own, d, m0, m1, paths; auto 10|exact Hx]. }
  (* places do not lie inside each other *)
  assert (forall P P' ty s ty' s' x x', stands (of_file o) fs file P ty s -> stands (of_file o) fs file P' ty' s' -> P ++ x = P' ++ x' -> P = P' /\ x = x') as Pf.
  { clear. intros P P' ty s ty' s' x x' (k & f & H & E & A) (k' & f' & H' & E' & A') Ex. assert (k = k') by lia. subst k'. rewrite H in H'. injection H' as <-.
    assert (exists l, (P = P' ++ l /\ x' = l ++ x) \/ (P' = P ++ l /\ x = l ++ x')) as (l & [[-> ->]|[-> ->]]) by (apply app_eq_app; exact Ex).
    - rewrite (file_prefix f P' l _ _ _ _ A' A), app_nil_r. auto.
    - rewrite (file_prefix f P l _ _ _ _ A A'), app_nil_r. auto. }
  split.
  - intros path ty s encoded us m b ls from to rest St Er Rs Hin. rewrite rename_each. cbn [map]. f_equal. apply rename_one.
    + intros f t r Hft Eq. destruct (Src f t Hft) as (path' & ty' & s' & enc' & us' & m' & b' & ls' & paths' & k' & q' & St' & _ & _ & _ & _ & -> & _).
      pose proof Rs as Rs0. destruct Rs as (own & d & m0 & m1 & paths & E0 & D0 & I0 & M0 & B0 & L0). subst ls.
      pose proof (proj1 (moved_in path paths 0 from to) Hin) as (k & q & Hk & -> & ->).
      pose proof (interpreted_paths _ _ _ _ _ _ _ _ _ I0 q (nth_error_In _ _ Hk)) as Hq. destruct q as [|n q]; [contradiction|].
      rewrite <- !app_assoc in Eq. cbn [app] in Eq. destruct (Pf _ _ _ _ _ _ _ _ St St' Eq) as [_ Eq2]. injection Eq2 as -> _.
      exact (H999 _ _ _ _ _ _ _ _ _ St Er Rs0 _ _ Hin).
    + intros f t r Hft Eq. destruct (Src f t Hft) as (path' & ty' & s' & enc' & us' & m' & b' & ls' & paths' & k' & q' & St' & Er' & Rs' & El' & Hk' & -> & -> & _).
      pose proof Rs as Rs0. destruct Rs as (own & d & m0 & m1 & paths & E0 & D0 & I0 & M0 & B0 & L0). 
      assert (ls = moved path 0 paths) as L1 by exact L0. rewrite L1 in Hin. pose proof (proj1 (moved_in path paths 0 from to) Hin) as (k & q & Hk & -> & ->).
      rewrite <- !app_assoc in Eq. cbn [app] in Eq. destruct (Pf _ _ _ _ _ _ _ _ St St' Eq) as [<- Eq2]. injection Eq2 as En _.
      destruct (stands_fun _ _ _ _ _ _ _ _ St St') as [<- <-]. rewrite Er in Er'. injection Er' as <- <-. destruct (Hraw _ _ _ _ Er) as (Hb & Ho & _).
      destruct (resolved_fun g p R _ _ _ _ _ _ _ _ _ _ _ _ (Lt _ _ _ _ St) Hb Ho Rs0 Rs') as (_ & _ & El). rewrite L1, El' in El.
      assert (k = k') by lia. subst k'. cbn [Nat.add] in *. split; [reflexivity|]. f_equal.
      assert (In (path ++ [999%Z; Z.of_nat k], path ++ q') (moved path 0 paths)) as Hm.
      { rewrite El. apply moved_in. exists k, q'. auto. }
      apply moved_in in Hm. destruct Hm as (k2 & q2 & Hk2 & Ea & Eb). apply app_inv_head in Ea. apply app_inv_head in Eb. injection Ea as Ek. cbn [Nat.add] in Ek.
      assert (k2 = k) by lia. subst. congruence.
    + destruct (S1 _ _ _ _ _ _ St Er) as (m' & b' & ls' & Rs' & _ & _ & Hi). destruct (Hraw _ _ _ _ Er) as (Hb & Ho & _).
      destruct (resolved_fun g p R _ _ _ _ _ _ _ _ _ _ _ _ (Lt _ _ _ _ St) Hb Ho Rs Rs') as (_ & _ & <-).
      unfold of_this_file. apply in_map_iff. exists (file, from, to). split; [reflexivity|]. apply filter_In. split; [|apply Nat.eqb_refl].
      apply Hi. apply in_map_iff. exists (from, to). split; [reflexivity|exact Hin].
  - intros q Hq. rewrite rename_each. cbn [map]. f_equal. apply rename_none. intros f t r Hft ->.
    destruct (Src f t Hft) as (path' & ty' & s' & enc' & us' & m' & b' & ls' & paths' & k' & q' & St' & Er' & _ & _ & _ & -> & _ & Hk & _).
    specialize (Hq path' ty' s' enc' us' k' r St' Er'). rewrite <- app_assoc in Hq. specialize (Hq eq_refl). lia.
Qed.
Print Assumptions C58_locations.

(** ** Adding files *)

(** the options phase of a build, as Build.v asks for it; only the number of the
    first new file matters *)
Definition options_phase (g : pool) (typed : str -> bytes -> bool) (raw : raw_options) (q : pool) (fs : list file) : res bool :=
  let! r := resolve_options g typed q (Off (length (p_files q) - length fs) 0 0 0 0) fs raw in
  Ok (match r with inl _ => false | inr _ => true end).

(** If an add with this phase succeeds, all options of the new files have a
    meaning. *)
Theorem C58_build X g typed raw fuel p fs p' :
  search_ok X -> (forall q gs, x_options X q gs = options_phase g typed raw q gs) ->
  reachable X p -> build_files X fuel p fs = Built p' -> ready g p' -> raw_ok raw ->
  forall i f, nth_error (pool_files p') i = Some f -> (length (p_files p) <= i)%nat ->
  forall path ty s encoded us, file_options f path ty s -> raw i path = Some (encoded, us) ->
  exists m b ls, resolved g p' i path ty s encoded us m b ls /\ typed ty b = true.
Proof.
  intros SO HX Rp HB R Hraw i f Hf Hi path ty s encoded us Hp Er. pose proof (reachable_Inv _ _ SO Rp) as I.
  pose proof (built_files X SO fuel p fs p' I HB) as Fs. assert (length (p_files p') = (length (p_files p) + length (dedup p fs))%nat) as Ln.
  { apply (f_equal (@length _)) in Fs. rewrite app_length in Fs. unfold pool_files in Fs. rewrite !map_length in Fs. exact Fs. }
  apply build_built in HB. destruct HB as [[D ->]|[_ (v & HB & Hq & ->)]].
  { exfalso. assert (i < length (pool_files p))%nat by (apply nth_error_Some; congruence). unfold pool_files in H. rewrite map_length in H. lia. }
  unfold build_deduped in HB. destruct (fold_res names_step _ _) as [v1| | |] eqn:E1; try discriminate. cbn [rbind] in HB.
  destruct (v_errs v1) as [|e1 l1] eqn:Q1; [|injection HB as ->; congruence].
  destruct (fold_res (resolve_step X fuel) _ v1) as [v2| | |] eqn:E2; try discriminate. cbn [rbind] in HB.
  destruct (v_errs v2) as [|e2 l2] eqn:Q2; [|injection HB as ->; congruence]. rewrite HX in HB. unfold options_phase in HB.
  destruct (resolve_options _ _ _ _ _ _) as [r| | |] eqn:E3; try discriminate. cbn [rbind] in HB.
  assert (v2 = v /\ exists raw' locs, r = inr (raw', locs)) as [-> (raw' & locs & ->)].
  { destruct r as [es|[raw' locs]]; [exfalso|injection HB as ->; eauto]. unfold push_err in HB. injection HB as <-. cbn in Hq.
    apply app_eq_nil in Hq. destruct Hq. discriminate. }
  assert (length (p_files (v_pool v)) - length (dedup p fs) = length (p_files p))%nat as Lf by lia. rewrite Lf in E3.
  pose proof (pass_spec g (v_pool v) typed (Off (length (p_files p)) 0 0 0 0) (dedup p fs) raw R Hraw ltac:(cbn; lia)) as S.
  rewrite E3 in S. destruct S as [S _]. rewrite Fs in Hf. rewrite nth_error_app2 in Hf by (unfold pool_files; rewrite map_length; exact Hi).
  destruct (S i path ty s encoded us) as (m & b & ls & H1 & H2 & _); [|exact Er|exists m, b, ls; auto].
  exists (i - length (p_files p))%nat, f. split; [|split; [cbn; lia|exact Hp]]. unfold pool_files in Hf. rewrite map_length in Hf. exact Hf.
Qed.
Print Assumptions C58_build.

(** ** The hypotheses are met *)

(** the part of descriptor.proto that matters *)
Definition uninterpreted_field : fproto := FP (b "uninterpreted_option") None 999 Repeated TMessage (b ".google.protobuf.UninterpretedOption") None None None None false.
Definition options_proto (name : string) (fields : list fproto) : dproto :=
  DP (b name) (fields ++ [uninterpreted_field]) [] [] [] [(1000, 536870912)%Z] [] false [].
Definition bool_field (name : string) (n : Z) : fproto := FP (b name) None n Optional TBool [] None None None None false.
Definition descriptor_file : file :=
  File (b "google/protobuf/descriptor.proto") (b "google.protobuf") [] [] []
    [options_proto "FileOptions" []; options_proto "MessageOptions" [bool_field "deprecated" 3]; options_proto "ExtensionRangeOptions" [];
     options_proto "FieldOptions" [bool_field "packed" 2]; options_proto "OneofOptions" []; options_proto "EnumOptions" [];
     options_proto "EnumValueOptions" []; options_proto "ServiceOptions" []; options_proto "MethodOptions" [];
     DP (b "UninterpretedOption") [FP (b "identifier_value") None 3 Optional TString [] None None None None false] [] [] [] [] [] false []]
    [] [] [] None.
(** message Info, extensions of MessageOptions and a message M with a list that has
    options *)
Definition custom_file : file :=
  File (b "c.proto") (b "c") [b "google/protobuf/descriptor.proto"] [] []
    [DP (b "Info") [FP (b "level") None 1 Optional TInt32 [] None None None None false;
                    FP (b "inner") None 2 Optional TMessage (b "Info") None None None None false;
                    FP (b "info") None 3 Optional TGroup (b "Info") None None None None false] [] [] [] [] [] false [];
     DP (b "M") [FP (b "list") None 1 Repeated TInt32 [] None None None (Some None) false] [] [] [] [] [] false []]
    [] []
    [FP (b "info") (Some (b "google.protobuf.MessageOptions")) 50000 Optional TMessage (b "Info") None None None None false;
     FP (b "tag") (Some (b "google.protobuf.MessageOptions")) 50001 Repeated TString [] None None None None false;
     FP (b "grp") (Some (b "google.protobuf.MessageOptions")) 50002 Optional TGroup (b "Info") None None None None false]
    (Some (b "proto3")).
Definition pool_g : pool := built (build_files demo_externs 10 empty_pool [descriptor_file]).
Definition pool_c : pool := built (build_files demo_externs 10 empty_pool [descriptor_file; custom_file]).
Lemma built_g : build_files demo_externs 10 empty_pool [descriptor_file] = Built pool_g.
Proof. vm_compute. reflexivity. Qed.
Lemma built_c : build_files demo_externs 10 empty_pool [descriptor_file; custom_file] = Built pool_c.
Proof. vm_compute. reflexivity. Qed.
Lemma grown_g : grown demo_externs pool_g.
Proof. apply (gr_built _ 10 empty_pool [descriptor_file] _ (gr_empty _)); [repeat constructor; discriminate|exact built_g]. Qed.
Lemma grown_c : grown demo_externs pool_c.
Proof. apply (gr_built _ 10 empty_pool [descriptor_file; custom_file] _ (gr_empty _)); [repeat constructor; discriminate|exact built_c]. Qed.
Lemma ready_c : ready pool_g pool_c.
Proof.
  apply (C58_pools_ready demo_externs demo_externs); try exact demo_search; try exact demo_floats; try exact grown_c; try exact grown_g.
  1,4: apply typedb_ok; vm_compute; reflexivity.
  1,3: apply protocb_ok; vm_compute; reflexivity.
  1,2: vm_compute; reflexivity.
  intros ty H. assert (forallb (fun ty => match get_message_by_name pool_g ty with Some _ => true | None => false end) option_types = true) as A by (vm_compute; reflexivity).
  rewrite forallb_forall in A. specialize (A _ H). destruct (get_message_by_name pool_g ty); discriminate.
Qed.

Definition no_value (name : list (str * bool)) : uoption := UO name None None None None None None.
Definition o_ident (name : list (str * bool)) (s : string) : uoption := UO name (Some (b s)) None None None None None.
Definition o_int (name : list (str * bool)) (n : N) : uoption := UO name None (Some n) None None None None.
Definition o_string (name : list (str * bool)) (s : string) : uoption := UO name None None None None (Some (b s)) None.
Definition o_text (name : list (str * bool)) (s : str) : uoption := UO name None None None None None (Some s).
Definition field_part (s : string) : str * bool := (b s, false).
Definition ext_part (s : string) : str * bool := (b s, true).

(** the options [us] of one place *)
Definition given (file : nat) (path : list Z) (encoded : bytes) (us : list uoption) : raw_options :=
  fun f q => if (Nat.eqb f file && (if list_eq_dec Z.eq_dec q path then true else false))%bool then Some (encoded, us) else None.
(** a typed options message that knows none of the fields: it checks the wire
    format (Options.v) *)
Definition checks_wire (ty : str) (bs : bytes) : bool :=
  match opt_merge ignore 100 (opt_default tt) bs with DOk _ _ => true | _ => false end.
Definition outcome_at (file : nat) (path : list Z) (r : res (list (oerr * option spot) + (raw_options * list (nat * list Z * list Z))))
  : res (list (oerr * option spot) + (option (bytes * list uoption) * list (nat * list Z * list Z))) :=
  match r with
  | Ok (inl es) => Ok (inl es)
  | Ok (inr (raw', locs)) => Ok (inr (raw' file path, locs))
  | Err e => Err e
  | Panic => Panic
  | Fuel => Fuel
  end.
(** the options of c.M: deprecated = true, (info).level = 3, (c.tag) = a, and
    (.c.tag) = b *)
Definition demo_options : list uoption :=
  [o_int [ext_part "info"; field_part "level"] 3; o_string [ext_part "c.tag"] "a"; o_string [ext_part ".c.tag"] "b"].
Definition demo_pass us := outcome_at 1 [4%Z; 1%Z; 7%Z] (resolve_options pool_g checks_wire pool_c (Off 1 0 0 0 0) [custom_file] (given 1 [4%Z; 1%Z; 7%Z] [24; 1] us)).
Definition shown (own : bool) (bs : bytes) : option (list (N * value)) :=
  match get_options pool_g pool_c (s2b "google.protobuf.MessageOptions") (Some bs) with
  | Ok (t, m) => Some (map (fun f => (fd_number f, get_field_value t m f)) (filter (has_field t m) (msg_fields t (dm_desc m) ++ msg_exts t (dm_desc m))))
  | _ => None
  end.

Definition bytes_of (r : res (list (oerr * option spot) + (option (bytes * list uoption) * list (nat * list Z * list Z)))) : bytes :=
  match r with Ok (inr (Some (bs, _), _)) => bs | _ => [] end.
Definition locs_of (r : res (list (oerr * option spot) + (option (bytes * list uoption) * list (nat * list Z * list Z)))) : list (nat * list Z * list Z) :=
  match r with Ok (inr (_, ls)) => ls | _ => [] end.

Lemma raw_given file path encoded us : bytes_okb encoded = true -> Forall uoption_ok us -> Forall (fun o => uo_name o <> []) us -> raw_ok (given file path encoded us).
Proof.
  intros Hb Ho Hn f q e u. unfold given. destruct (_ && _)%bool; [|discriminate]. intros [= <- <-]. split; [apply bytes_okb_ok; exact Hb|auto].
Qed.

Example C58_nonvacuous :
  ready pool_g pool_c /\ raw_ok (given 1 [4%Z; 1%Z; 7%Z] [24; 1] demo_options) /\
  file_options custom_file [4%Z; 1%Z; 7%Z] (s2b "google.protobuf.MessageOptions") (s2b "c.M") /\
  (exists bs,
    demo_pass demo_options =
      Ok (inr (Some (bs, []), [(1%nat, [4%Z; 1%Z; 7%Z; 999%Z; 0%Z], [4%Z; 1%Z; 7%Z; 50000%Z; 1%Z]);
                               (1%nat, [4%Z; 1%Z; 7%Z; 999%Z; 1%Z], [4%Z; 1%Z; 7%Z; 50001%Z; 0%Z]);
                               (1%nat, [4%Z; 1%Z; 7%Z; 999%Z; 2%Z], [4%Z; 1%Z; 7%Z; 50001%Z; 1%Z])])) /\
    shown true bs = Some [(3, VBool true); (50000, VMessage (DM 10 [(1, SVal (VI32 3))])); (50001, VList [VString (b "a"); VString (b "b")])]) /\
  (* not in scope; a wrong type; set twice; no such field; a wrong extendee *)
  demo_pass [o_int [ext_part "nothing"] 1] = Ok (inl [(OptName, Some (1%nat, [4; 1; 7; 999; 0]%Z))]) /\
  demo_pass [o_int [ext_part "tag"] 1] = Ok (inl [(OptType true, Some (1%nat, [4; 1; 7; 999; 0]%Z))]) /\
  demo_pass [o_ident [field_part "deprecated"] "false"; o_int [ext_part "info"; field_part "level"] 1; o_int [ext_part "info"; field_part "level"] 2]
    = Ok (inl [(OptDuplicate, Some (1%nat, [4; 1; 7; 999; 0]%Z)); (OptDuplicate, Some (1%nat, [4; 1; 7; 999; 2]%Z))]) /\
  demo_pass [o_int [field_part "nothing"] 1] = Ok (inl [(OptNotFound, Some (1%nat, [4; 1; 7; 999; 0]%Z))]) /\
  demo_pass [o_int [ext_part "info"; ext_part "tag"] 1] = Ok (inl [(OptExtendee, Some (1%nat, [4; 1; 7; 999; 0]%Z))]).
Proof.
  split; [exact ready_c|]. split.
  { apply raw_given; [reflexivity| |].
    - repeat constructor; cbn; auto; try (vm_compute; reflexivity); apply bytes_okb_ok; vm_compute; reflexivity.
    - repeat constructor; discriminate. }
  split. { apply (fo_message custom_file 1 _ [7%Z] _ _ eq_refl). apply mo_self. }
  split. { exists (bytes_of (demo_pass demo_options)). split; vm_compute; reflexivity. }
  repeat split; vm_compute; reflexivity.
Qed.

(** ** Where the code falls short *)

Fixpoint nest (n : nat) (s : string) : str := match n with O => [] | S k => b s ++ [123] ++ nest k s ++ [125] end.

(** A value nested deeper than 100 is accepted, and options() panics. *)
Theorem C58_deep_option_refuted :
  exists us bs locs, Forall uoption_ok us /\ demo_pass us = Ok (inr (Some (bs, []), locs)) /\
    get_options pool_g pool_c (s2b "google.protobuf.MessageOptions") (Some bs) = Panic.
Proof.
  set (r := demo_pass [o_text [ext_part "info"] (nest 101 "inner")]).
  exists [o_text [ext_part "info"] (nest 101 "inner")], (bytes_of r), (locs_of r). split.
  { constructor; [|constructor]. repeat split. cbn [o_text uo_aggregate]. apply bytes_okb_ok. vm_compute. reflexivity. }
  split; vm_compute; reflexivity.
Qed.
Print Assumptions C58_deep_option_refuted.

(** With groups, adding the file already panics. *)
Theorem C58_deep_groups_refuted :
  exists us, Forall uoption_ok us /\ Forall (fun o => uo_name o <> []) us /\ demo_pass us = Panic.
Proof.
  exists [o_text [ext_part "grp"] (nest 101 "Info")]. split.
  { constructor; [|constructor]. repeat split. cbn [o_text uo_aggregate]. apply bytes_okb_ok. vm_compute. reflexivity. }
  split; [repeat constructor; discriminate|]. vm_compute. reflexivity.
Qed.
Print Assumptions C58_deep_groups_refuted.

(** An option without a name, and one that sets the field of the uninterpreted
    options, are accepted and lost. *)
Theorem C58_lost_refuted :
  exists l1 l2 bs, demo_pass [no_value []] = Ok (inr (Some (bs, []), l1)) /\
    demo_pass [o_text [field_part "uninterpreted_option"] (b "identifier_value: 'x'")] = Ok (inr (Some (bs, []), l2)) /\
    shown true bs = Some [(3, VBool true)].
Proof.
  exists (locs_of (demo_pass [no_value []])), (locs_of (demo_pass [o_text [field_part "uninterpreted_option"] (b "identifier_value: 'x'")])),
    (bytes_of (demo_pass [no_value []])).
  repeat split; vm_compute; reflexivity.
Qed.
Print Assumptions C58_lost_refuted.

(** A field set twice is an error, but not if it has no presence and is first set
    to its default. *)
Theorem C58_set_twice_refuted :
  exists bs locs, demo_pass [o_int [ext_part "info"; field_part "level"] 0; o_int [ext_part "info"; field_part "level"] 5] = Ok (inr (Some (bs, []), locs)) /\
    shown true bs = Some [(3, VBool true); (50000, VMessage (DM 10 [(1, SVal (VI32 5))]))].
Proof.
  set (r := demo_pass [o_int [ext_part "info"; field_part "level"] 0; o_int [ext_part "info"; field_part "level"] 5]).
  exists (bytes_of r), (locs_of r). split; vm_compute; reflexivity.
Qed.
Print Assumptions C58_set_twice_refuted.

(** The option packed, if uninterpreted, is shown by options() and not by
    is_packed(). *)
Theorem C58_packed_refuted :
  exists bs locs m f v,
    outcome_at 1 [4%Z; 1%Z; 2%Z; 0%Z; 8%Z]
      (resolve_options pool_g checks_wire pool_c (Off 1 0 0 0 0) [custom_file] (given 1 [4%Z; 1%Z; 2%Z; 0%Z; 8%Z] [] [o_ident [field_part "packed"] "true"]))
    = Ok (inr (Some (bs, []), locs)) /\
    get_options pool_g pool_c (s2b "google.protobuf.FieldOptions") (Some bs) = Ok (p_tables pool_c, m) /\
    In f (msg_fields (p_tables pool_c) (dm_desc m)) /\ fd_name f = b "packed" /\ get_field_value (p_tables pool_c) m f = VBool true /\
    In v (msg_fields (p_tables pool_c) 11) /\ fd_name v = b "list" /\ fd_packed v = false.
Proof.
  destruct (nth_error (msg_fields (p_tables pool_c) 3) 0) as [f|] eqn:Ef; [|vm_compute in Ef; discriminate].
  destruct (nth_error (msg_fields (p_tables pool_c) 11) 0) as [v|] eqn:Ev; [|vm_compute in Ev; discriminate].
  exists [16; 1], [(1%nat, [4%Z; 1%Z; 2%Z; 0%Z; 8%Z; 999%Z; 0%Z], [4%Z; 1%Z; 2%Z; 0%Z; 8%Z; 2%Z])], (DM 3 [(2, SVal (VBool true))]), f, v.
  split; [vm_compute; reflexivity|]. split; [vm_compute; reflexivity|]. split; [eapply nth_error_In; exact Ef|].
  assert (In v (msg_fields (p_tables pool_c) 11)) as Iv by (eapply nth_error_In; exact Ev).
  vm_compute in Ef, Ev. apply Some_inj in Ef. apply Some_inj in Ev. subst f.
  split; [reflexivity|]. split; [vm_compute; reflexivity|]. split; [exact Iv|]. subst v. split; reflexivity.
Qed.
Print Assumptions C58_packed_refuted.
