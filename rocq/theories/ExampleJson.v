(** A concrete schema for the examples about JSON: the well-known types of
    [wkt_tables] and

    message M {
      int32 a = 1;  string my_name = 2;  repeated google.protobuf.Value vs = 3;
      repeated google.protobuf.NullValue ns = 4;  google.protobuf.Value v = 5;
      google.protobuf.NullValue n = 6;  oneof o { uint32 x = 7; string y = 8; }
      M child = 9;  google.protobuf.Timestamp ts = 10;  E e = 11;  repeated E es = 12;
      repeated M ms = 13;  float f = 14;  double d = 15;  bytes bs = 16;
      google.protobuf.DoubleValue dv = 17;  repeated google.protobuf.DoubleValue dvs = 18;
      map<string, M> mp = 19;
      extend M { int32 ext = 100; } }
    enum E { ZERO = 0; ONE = 1; }                                            *)
From Coq Require Import String.
From Verif Require Import Base Wire Unknown Value Descr Fields Codec DescrOk TextFormat Json JsonSer JsonDe ExampleSchema.
Open Scope list_scope.
Open Scope N_scope.

Definition jex_field (name json : string) (num : N) (k : kind) (o : option nat) (pres : bool) (c : card) : field_inner :=
  FieldI (ex_id "M." name) num (s2b json) k o false pres c None.
Definition jex_fields : list field_inner :=
  [ jex_field "a" "a" 1 KInt32 None false Optional;
    jex_field "my_name" "myName" 2 KString None false Optional;
    jex_field "vs" "vs" 3 (KMessage 5) None false Repeated;
    jex_field "ns" "ns" 4 (KEnum 0) None false Repeated;
    jex_field "v" "v" 5 (KMessage 5) None true Optional;
    jex_field "n" "n" 6 (KEnum 0) None false Optional;
    jex_field "x" "x" 7 KUint32 (Some 0%nat) true Optional;
    jex_field "y" "y" 8 KString (Some 0%nat) true Optional;
    jex_field "child" "child" 9 (KMessage 18) None true Optional;
    jex_field "ts" "ts" 10 (KMessage 1) None true Optional;
    jex_field "e" "e" 11 (KEnum 1) None false Optional;
    jex_field "es" "es" 12 (KEnum 1) None false Repeated;
    jex_field "ms" "ms" 13 (KMessage 18) None false Repeated;
    jex_field "f" "f" 14 KFloat None false Optional;
    jex_field "d" "d" 15 KDouble None false Optional;
    jex_field "bs" "bs" 16 KBytes None false Optional;
    jex_field "dv" "dv" 17 (KMessage 9) None true Optional;
    jex_field "dvs" "dvs" 18 (KMessage 9) None false Repeated;
    jex_field "mp" "mp" 19 (KMessage 19) None false Repeated ].
Definition jex : tables := {|
  t_messages := t_messages wkt_tables ++
    [ ex_msg "M" jex_fields [OneofI (ex_id "M." "o") [6; 7]%nat] [0%nat] false;
      ex_msg "M.MpEntry" [ ex_field "M.MpEntry." "key" 1 KString None false false Optional;
                           ex_field "M.MpEntry." "value" 2 (KMessage 18) None false true Optional ]
        [] [] true ];
  t_enums := t_enums wkt_tables ++
    [ EnumI (ex_id "" "E") None
        [EnumValueI (ex_id "" "ZERO") 0; EnumValueI (ex_id "" "ONE") 1]
        [(0%Z, 0%nat); (1%Z, 1%nat)] [(s2b "ONE", 1%nat); (s2b "ZERO", 0%nat)] false ];
  t_exts := [ ExtI (ex_id "" "ext") None 100 (s2b "[ext]") 18 KInt32 false Optional None ]
|}.
Example jex_wf : wf jex.
Proof. split; vm_compute; reflexivity. Qed.

(** the calls that leave the model are not used in the examples *)
Definition jex_externs : json_externs :=
  JsonExterns (fun l z => None) (fun _ _ => []) (fun _ => None) (fun _ _ => []) (fun _ => None) (fun l => l) (fun b => b) (fun b => b).
