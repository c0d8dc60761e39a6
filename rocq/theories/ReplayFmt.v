(** The tests of lib/tmp/src/msdosmz.rs and lib/tmp/src/pecoff.rs, run on the
    model, on a little-endian and on a big-endian host. *)
From Coq Require Import String.
From Verif Require Import Base FfiSpec FmtSpec LayModel FfiModel FmtModel.
From Verif Require EtcModel.
Local Open Scope string_scope.
Local Open Scope list_scope.
Local Open Scope res_scope.

(** Rust semantics: x86-64, for the tests below of lib/tmp/src/msdosmz.rs:558-663. *)
Definition le64 : host := {| order_ := LittleFirst; al2 := 2; al4 := 4; al8 := 8 |}.
(** Rust semantics: s390x, for the same tests, lib/tmp/src/msdosmz.rs:558-663. *)
Definition be64 : host := {| order_ := BigFirst; al2 := 2; al4 := 4; al8 := 8 |}.

(** lib/tmp/src/msdosmz.rs:562-574, [verify_types]. *)
Example replay_mz_types : map (fun d => (size_of (decl_ty le64 d), align_of (decl_ty le64 d))) [Header; HeaderExt; Relocation]
  = [(28, 2); (36, 4); (4, 2)].
Proof. reflexivity. Qed.

(** lib/tmp/src/msdosmz.rs:577-584, [verify_header]. *)
Example replay_mz_header : forall h, In h [le64; be64] ->
  (do o <- from_bytes h Header (firstn 28 STUB_X86); do b <- as_bytes h Header 28 o; Ok (member h Header "magic" o, b))
  = Ok (Some (map Some MAGIC), Some (firstn 28 STUB_X86)).
Proof. intros h [<-|[<-|[]]]; reflexivity. Qed.

(** lib/tmp/src/msdosmz.rs:587-594, [verify_headerext]. *)
Example replay_mz_headerext : forall h, In h [le64; be64] ->
  (do o <- from_bytes h HeaderExt (firstn 36 (skipn 28 STUB_X86)); do b <- as_bytes h HeaderExt 36 o; Ok (number h HeaderExt "lfanew" o, b))
  = Ok (Some 0x80%Z, Some (firstn 36 (skipn 28 STUB_X86))).
Proof. intros h [<-|[<-|[]]]; reflexivity. Qed.

(** lib/tmp/src/msdosmz.rs:597-607, [verify_relocation]. *)
Example replay_mz_relocation : forall h, In h [le64; be64] ->
  (do o <- from_bytes h Relocation [0x10; 0x00; 0x20; 0x00]%N; do b <- as_bytes h Relocation 4 o;
   Ok (number h Relocation "offset" o, number h Relocation "segment" o, b))
  = Ok (Some 0x10%Z, Some 0x20%Z, Some [0x10; 0x00; 0x20; 0x00]%N).
Proof. intros h [<-|[<-|[]]]; reflexivity. Qed.

(** lib/tmp/src/msdosmz.rs:610-628, [verify_sum16]. *)
Example replay_mz_sum16 : map sum16 [ [0; 0; 1; 0; 2; 0; 3; 0]; [0; 0; 1; 0; 2; 0; 3]; [1; 2; 2; 4]; [0xff; 0xff; 2; 0] ]%N
  = [Ok 6; Ok 6; Ok 0x603; Ok 1]%N.
Proof. reflexivity. Qed.

(** lib/tmp/src/msdosmz.rs:631-662, [verify_stub_x86]. *)
Example replay_mz_stub : forall h, In h [le64; be64] ->
  (do o <- from_bytes h Header (firstn 28 STUB_X86); do e <- from_bytes h HeaderExt (firstn 36 (skipn 28 STUB_X86)); do s <- sum16 STUB_X86;
   Ok (member h Header "magic" o,
       map (fun n => number h Header n o)
         ["cblp"; "cp"; "crlc"; "cparhdr"; "minalloc"; "maxalloc"; "ss"; "sp"; "csum"; "ip"; "cs"; "lfarlc"; "ovno"],
       member h HeaderExt "res" e, member h HeaderExt "res2" e,
       map (fun n => number h HeaderExt n e) ["oemid"; "oeminfo"; "lfanew"], (0xffff - s)%N))
  = Ok (Some (map Some MAGIC),
        map Some [128; 1; 0; 4; 0; 0xffff; 0; 0x80; 0xa768; 0; 0; 0x40; 0]%Z,
        Some (repeat (Some 0%N) 8), Some (repeat (Some 0%N) 20), map Some [0; 0; 0x80]%Z, 0%N).
Proof. intros h [<-|[<-|[]]]; vm_compute; reflexivity. Qed.

(** lib/tmp/src/pecoff.rs:268-289, [verify_types]. *)
Example replay_pe_types : map (fun d => (size_of (decl_ty le64 d), align_of (decl_ty le64 d)))
    [PeHeader; OptionalHeader Pe; OptionalHeader Pe32P; OptionalHeaderExt Pe; OptionalHeaderExt Pe32P]
  = [(20, 4); (28, 4); (24, 4); (68, 4); (88, 8)].
Proof. reflexivity. Qed.

(** lib/osi/src/error.rs:224-250, [uncaught_basic], with and without the
    standard library; the objects are formatted as in the test. *)
Example replay_uncaught :
  let put (w s : string) := ((w ++ s)%string, true) in
  let zero := {| EtcModel.debug := fun w => put w "0"; EtcModel.display := fun w => put w "0"; EtcModel.cause := None |} in
  let foobar := {| EtcModel.debug := fun w => put w "Custom { kind: Other, error: ""foobar"" }";
                   EtcModel.display := fun w => put w "foobar"; EtcModel.cause := None |} in
  let debug std e := fst (EtcModel.debug_fmt put std e ""%string) in
  let display e := fst (EtcModel.display_fmt put e ""%string) in
  (map (debug true) [EtcModel.Any zero; EtcModel.Debug zero; EtcModel.Display zero; EtcModel.Error foobar],
   map display [EtcModel.Any zero; EtcModel.Debug zero; EtcModel.Display zero; EtcModel.Error foobar],
   debug false (EtcModel.Error foobar))
  = (["Uncaught::Any()"; "Uncaught::Debug(0)"; "Uncaught::Display(0)"; "Uncaught::Error(Custom { kind: Other, error: ""foobar"" })"],
     ["Uncaught(Any)"; "Uncaught(Debug): 0"; "Uncaught(Display): 0"; "Uncaught(Error): foobar"],
     "Uncaught::Error(foobar)").
Proof. reflexivity. Qed.
