(** C37, C39: string and integer literals of the text format. *)
From Coq Require Import String.
From Verif Require Import Base BaseProofs Wire Unknown Value Descr Fields Codec DescrOk ExampleSchema
  Float TextLex TextFormat TextParse TextLexProofs TextInts.
Open Scope list_scope.
Open Scope N_scope.

(** ** C37: a printed string literal is read back, whatever follows it *)

(** [lex] gives the tokens of a whole text.  The literal printed for [s] is one
    string token holding [s], and the tokens after it are those of the text that
    follows. *)
Theorem C37_string_literal_round_trip s rest :
  Forall (fun b => b < 256) s ->
  exists ks, lex rest = Ok ks /\ lex (fmt_string s ++ rest) = Ok (TStr s :: ks).
Proof.
  intros H. destruct (lex_total rest) as [ks L]. exists ks. split; [exact L|]. now apply lex_string.
Qed.

(** one scalar field on its own *)
Lemma one_field t m name f ts :
  find_field t (dm_desc m) name = Some f -> fd_is_list f = false -> fd_is_map f = false -> kind_msg (fd_kind f) = None ->
  fs_has t f (dm_fields m) = false -> fd_oneof f = None ->
  forall r, parse_scalar t (fd_kind f) ts = r -> (match r with POk _ [] | PErr _ => True | _ => False end) ->
  merge_tokens t m (TIdent name :: TColon :: ts) =
  match r with
  | POk v _ => MOk (with_fields m (fs_set f v (dm_fields m))) []
  | PErr e => MErr e m
  | _ => MPanic
  end.
Proof.
  intros Hf Hc Hc' Hm Hh Ho r Hr Hg. unfold merge_tokens.
  assert (forall n, parse_value t n (fd_kind f) ts = parse_scalar t (fd_kind f) ts) as Hpv by (intros [|n]; cbn [parse_value]; rewrite Hm; reflexivity).
  specialize (Hpv (length (TIdent name :: TColon :: ts))).
  revert Hpv. generalize (parse_value t (length (TIdent name :: TColon :: ts))) as pv. intros pv Hpv. cbn [length fields_loop].
  assert (parse_field t pv m (TIdent name :: TColon :: ts) =
    match r with
    | POk v _ => MOk (with_fields m (fs_set f v (dm_fields m))) []
    | PErr e => MErr e m
    | _ => MPanic
    end) as ->.
  { unfold parse_field. cbn [field_name mbind field_sep]. rewrite Hf. unfold field_value_in.
    rewrite Hc, Hc'.
    rewrite Hpv, Hr. destruct r as [v [|k ks]|e| |]; try contradiction; cbn [mbind field_end]; [|reflexivity].
    rewrite Hh, Ho. reflexivity. }
  destruct r as [v [|k ks]|e| |]; try contradiction; reflexivity.
Qed.

(** and the field [name: literal] is given exactly these bytes *)
Theorem C37_bytes_field_gets_the_bytes t m name f s :
  Forall (fun b => b < 256) s -> ident_okb name = true ->
  find_field t (dm_desc m) name = Some f -> fd_kind f = KBytes -> fd_is_list f = false -> fd_is_map f = false ->
  fs_has t f (dm_fields m) = false -> fd_oneof f = None ->
  merge_text t m (name ++ s2b ":" ++ fmt_string s) = MOk (with_fields m (fs_set f (VBytes s) (dm_fields m))) [].
Proof.
  intros Hs Hn Hf Hk Hc Hc' Hh Ho. unfold merge_text.
  assert (lex (name ++ s2b ":" ++ fmt_string s) = Ok [TIdent name; TColon; TStr s]) as ->.
  { apply lex_ident; [exact Hn|reflexivity|]. cbn [s2b app]. apply lex_punct; try reflexivity.
    rewrite <- (app_nil_r (fmt_string s)). apply lex_string; [exact Hs|reflexivity]. }
  rewrite one_field with (f := f) (r := POk (VBytes s) []); auto; rewrite Hk; reflexivity.
Qed.

Example C37_example :
  lex (fmt_string (s2b "a" ++ [0; 34; 39; 92; 200; 10; 13; 9; 127]) ++ s2b "7, b")
  = Ok [TStr (s2b "a" ++ [0; 34; 39; 92; 200; 10; 13; 9; 127]); TInt (s2b "7") 10; TComma; TIdent (s2b "b")].
Proof. vm_compute. reflexivity. Qed.
(** ** A printed literal is printable ASCII, in double quotes, whatever the bytes *)
Theorem C37_literals_are_ascii s : Forall (fun b => b < 256) s ->
  (exists inside, fmt_string s = 34 :: inside ++ [34]) /\ Forall (fun b => 32 <= b <= 126) (fmt_string s).
Proof.
  intros B. split; [eexists; reflexivity|]. unfold fmt_string. constructor; [lia|]. apply Forall_app. split; [|constructor; [lia|constructor]].
  induction B as [|c s Hc _ IH]; [constructor|]. cbn [flat_map]. apply Forall_app. split; [|exact IH].
  revert c Hc. apply (byte_cases (fun c => Forall (fun b => 32 <= b <= 126) (fmt_char c))).
  apply Forall_forall. intros c Hc. apply Forall_forall. intros b Hb.
  assert (A : forallb (fun c => forallb (fun b => (32 <=? b) && (b <=? 126)) (fmt_char c)) (map N.of_nat (seq 0 256)) = true) by (vm_compute; reflexivity).
  rewrite forallb_forall in A. specialize (A c Hc). rewrite forallb_forall in A. specialize (A b Hb). lia.
Qed.

Print Assumptions C37_string_literal_round_trip.
Print Assumptions C37_bytes_field_gets_the_bytes.
Print Assumptions C37_literals_are_ascii.

(** ** C39: integer literals *)

(** Reading the literal [l] for a field of integer kind [k] with range
    [lo, hi]: accepted, with its mathematical value, iff that value is in range
    and no minus sign is given for an unsigned kind; otherwise the error is the
    range error.  What follows the literal stays to be read. *)
Theorem C39_integer_literals t k lo hi l rest :
  int_range k = Some (lo, hi) -> lit_okb l = true -> ends_literal rest ->
  exists ks ts, lex rest = Ok ks /\ lex (lit_text l ++ rest) = Ok ts /\
    parse_scalar t k ts =
    if negb (l_neg l && unsigned k) && ((lo <=? lit_value l)%Z && (lit_value l <=? hi)%Z)
    then POk (int_value k (lit_value l)) ks else PErr PIntRange.
Proof.
  intros Hk Hl He. destruct (lex_total rest) as [ks L]. exists ks, (lit_toks l ++ ks).
  split; [exact L|]. split; [now apply lex_literal|]. now apply parse_literal with (lo := lo) (hi := hi).
Qed.

(** The same through the API: the text [name: literal] merged into a message
    in which the field is not set. *)
Theorem C39_integer_field t m name f lo hi l :
  int_range (fd_kind f) = Some (lo, hi) -> lit_okb l = true -> ident_okb name = true ->
  find_field t (dm_desc m) name = Some f -> fd_is_list f = false -> fd_is_map f = false ->
  fs_has t f (dm_fields m) = false -> fd_oneof f = None ->
  merge_text t m (name ++ s2b ": " ++ lit_text l) =
  if negb (l_neg l && unsigned (fd_kind f)) && ((lo <=? lit_value l)%Z && (lit_value l <=? hi)%Z)
  then MOk (with_fields m (fs_set f (int_value (fd_kind f) (lit_value l)) (dm_fields m))) []
  else MErr PIntRange m.
Proof.
  intros Hk Hl Hn Hf Hc Hc' Hh Ho. unfold merge_text.
  assert (lex (name ++ s2b ": " ++ lit_text l) = Ok (TIdent name :: TColon :: lit_toks l)) as ->.
  { apply lex_ident; [exact Hn|reflexivity|]. cbn [s2b app]. apply lex_punct; try reflexivity.
    rewrite lex_space by reflexivity.
    rewrite <- (app_nil_r (lit_text l)), <- (app_nil_r (lit_toks l)). apply lex_literal; [exact Hl|exact I|reflexivity]. }
  rewrite (one_field t m name f (lit_toks l)) with (r := if negb (l_neg l && unsigned (fd_kind f)) && ((lo <=? lit_value l)%Z && (lit_value l <=? hi)%Z)
    then POk (int_value (fd_kind f) (lit_value l)) [] else PErr PIntRange); auto.
  - destruct (negb _ && _); reflexivity.
  - destruct (fd_kind f); try reflexivity; discriminate.
  - rewrite <- (app_nil_r (lit_toks l)). now apply parse_literal.
  - destruct (negb _ && _); exact I.
Qed.

(** A literal whose value is in range is not always accepted: minus zero is
    zero, and is refused by the unsigned kinds. *)
Theorem C39_minus_zero_refuted :
  ~ (forall t k lo hi l, int_range k = Some (lo, hi) -> lit_okb l = true ->
       (lo <= lit_value l <= hi)%Z -> exists ts, lex (lit_text l) = Ok ts /\
       parse_scalar t k ts = POk (int_value k (lit_value l)) []).
Proof.
  intros H. destruct (H ex KUint32 0%Z 4294967295%Z (Lit true Dec (s2b "0")) eq_refl eq_refl) as (ts & L & P).
  - vm_compute. split; discriminate.
  - vm_compute in L. injection L as <-. vm_compute in P. discriminate.
Qed.

Example C39_example_min :
  parse_text ex 0 (s2b "[ext2]: -0x8000000000000000")
  = MOk (DM 0 [(101, SVal (VI64 (-9223372036854775808)))]) []
  /\ parse_text ex 0 (s2b "a: 020000000000 ") = MErr PIntRange (new_msg 0)
  /\ parse_text ex 0 (s2b "a: -020000000000 ") = MOk (DM 0 [(1, SVal (VI32 (-2147483648)))]) []
  /\ lit_okb (Lit true Oct (s2b "20000000000")) = true
  /\ lit_value (Lit true Oct (s2b "20000000000")) = (-2147483648)%Z.
Proof. vm_compute. repeat split. Qed.
Print Assumptions C39_integer_literals.
Print Assumptions C39_integer_field.
Print Assumptions C39_minus_zero_refuted.
