(** A concrete schema used by the non-vacuity examples of the Prop_ files:

    message M {                      // proto3 flavoured
      int32 a = 1;  optional string s = 2;  repeated sint32 p = 3 [packed];
      map<string, M> mp = 4;  oneof o { uint32 x = 5; string y = 6; }
      M child = 7;  group G = 8;  repeated string names = 9;  bytes bs = 10;
      E e = 11;  double d = 12;  repeated M ms = 13;
      extend M { repeated fixed64 ext = 100 [packed]; sint64 ext2 = 101; } }
    enum E { ZERO = 0; ONE = 1; }                                            *)
From Coq Require Import String.
From Verif Require Import Base Wire Unknown Value Descr Fields Codec DescrOk.
Open Scope string_scope.
Open Scope N_scope.

Definition ex_id (pre name : string) : ident :=
  Ident 0 [] (s2b (pre ++ name)) (String.length pre).
Definition ex_field (pre name : string) (num : N) (k : kind) (o : option nat)
  (packed pres : bool) (c : card) : field_inner :=
  FieldI (ex_id pre name) num (s2b name) k o packed pres c None.

Definition ex_fields : list field_inner :=
  [ ex_field "M." "a" 1 KInt32 None false false Optional;
    ex_field "M." "s" 2 KString None false true Optional;
    ex_field "M." "p" 3 KSint32 None true false Repeated;
    ex_field "M." "mp" 4 (KMessage 1) None false false Repeated;
    ex_field "M." "x" 5 KUint32 (Some 0%nat) false true Optional;
    ex_field "M." "y" 6 KString (Some 0%nat) false true Optional;
    ex_field "M." "child" 7 (KMessage 0) None false true Optional;
    ex_field "M." "g" 8 (KGroup 2) None false true Optional;
    ex_field "M." "names" 9 KString None false false Repeated;
    ex_field "M." "bs" 10 KBytes None false false Optional;
    ex_field "M." "e" 11 (KEnum 0) None false false Optional;
    ex_field "M." "d" 12 KDouble None false false Optional;
    ex_field "M." "ms" 13 (KMessage 0) None false false Repeated ].

Fixpoint ex_index {A} (key : field_inner -> A) (l : list field_inner) (i : nat) : list (A * nat) :=
  match l with
  | [] => []
  | f :: r => (key f, i) :: ex_index key r (S i)
  end.
Definition ex_msg (name : string) (fs : list field_inner) (os : list oneof_inner) (xs : list nat)
  (entry : bool) : message_inner :=
  MessageI (ex_id "" name) None xs fs (ex_index f_number fs 0)
    (ex_index (fun f => id_name (f_id f)) fs 0) (ex_index f_json fs 0) os entry.

Definition ex : tables := {|
  t_messages :=
    [ ex_msg "M" ex_fields [OneofI (ex_id "M." "o") [4; 5]%nat] [0; 1]%nat false;
      ex_msg "M.MpEntry" [ ex_field "M.MpEntry." "key" 1 KString None false false Optional;
                           ex_field "M.MpEntry." "value" 2 (KMessage 0) None false true Optional ]
        [] [] true;
      ex_msg "G" [ ex_field "G." "f" 1 KFloat None false true Optional ] [] [] false ];
  t_enums := [ EnumI (ex_id "" "E") None
                 [EnumValueI (ex_id "" "ZERO") 0; EnumValueI (ex_id "" "ONE") 1]
                 [(0%Z, 0%nat); (1%Z, 1%nat)] [(s2b "ZERO", 0%nat); (s2b "ONE", 1%nat)] false ];
  t_exts := [ ExtI (ex_id "" "ext") None 100 (s2b "[ext]") 0 KFixed64 true Repeated None;
              ExtI (ex_id "" "ext2") None 101 (s2b "[ext2]") 0 KSint64 false Optional None ]
|}.

Example ex_wf : wf ex.
Proof. split; vm_compute; reflexivity. Qed.

Definition ex_leaf : dynmsg := DM 0 [(1, SVal (VI32 (-5))); (6, SVal (VString (s2b "yy")))].
(** a message using every field shape, an extension and unknown fields *)
Definition ex_m : dynmsg := DM 0
  [ (1, SVal (VI32 42));
    (2, SVal (VString []));
    (3, SVal (VList [VI32 1; VI32 (-1); VI32 300]));
    (4, SVal (VMap [(MKString (s2b "k"), VMessage ex_leaf); (MKString [], VMessage (new_msg 0))]));
    (5, SVal (VU32 0));
    (7, SVal (VMessage ex_leaf));
    (8, SVal (VMessage (DM 2 [(1, SVal (VF32 1065353216))])));
    (9, SVal (VList [VString (s2b "n1"); VString []]));
    (10, SVal (VBytes [0; 255]));
    (11, SVal (VEnum 7));
    (12, SVal (VF64 4611686018427387904));
    (13, SVal (VList [VMessage ex_leaf; VMessage (new_msg 0)]));
    (50, SUnk [UVarint 50 7; UGroup 50 [ULen 1 [1; 2; 3]]]);
    (100, SVal (VList [VU64 3; VU64 18446744073709551615]));
    (101, SVal (VI64 (-9223372036854775808))) ].

Example ex_m_ok : ok_msg ex ex_m = true.
Proof. vm_compute. reflexivity. Qed.
Example ex_m_depth : msg_depth ex_m = 1%nat.
Proof. vm_compute. reflexivity. Qed.

(** views of its fields by number *)
Definition ex_f (n : N) : fdl :=
  match find_desc ex 0 n with
  | Some f => f
  | None => Fdl 0 KBool Optional false false None None false [] [] []
  end.
