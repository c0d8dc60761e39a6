(** Specification: the numbers of the PE format, after the tables of the PE
    Format specification of Microsoft (names there are prefixed IMAGE_FILE_,
    IMAGE_DLLCHARACTERISTICS_, IMAGE_SCN_, IMAGE_SUBSYSTEM_ and
    IMAGE_FILE_MACHINE_). *)
From Coq Require Import String List NArith.
Import ListNotations.
Local Open Scope string_scope.

(** A set of flags: what the bits mean, from bit 0 on; [""] is a reserved bit. *)
Fixpoint bits (pre : string) (i : N) (l : list string) : list (string * N) :=
  match l with
  | [] => []
  | "" :: l => bits pre (N.succ i) l
  | n :: l => (pre ++ n, N.shiftl 1 i) :: bits pre (N.succ i) l
  end.

(** An enumeration: what the numbers mean, from 0 on. *)
Fixpoint numbers (pre : string) (i : N) (l : list string) : list (string * N) :=
  match l with
  | [] => []
  | "" :: l => numbers pre (N.succ i) l
  | n :: l => (pre ++ n, i) :: numbers pre (N.succ i) l
  end.

(** COFF file header, characteristics. *)
Definition characteristics := bits "CHARACTERISTIC_" 0
  [ "RELOCS_STRIPPED"; "EXECUTABLE_IMAGE"; "LINE_NUMS_STRIPPED"; "LOCAL_SYMS_STRIPPED"
  ; "AGGRESSIVE_WS_TRIM"; "LARGE_ADDRESS_AWARE"; ""; "BYTES_REVERSED_LO"
  ; "32BIT_MACHINE"; "DEBUG_STRIPPED"; "REMOVABLE_RUN_FROM_SWAP"; "NET_RUN_FROM_SWAP"
  ; "SYSTEM"; "DLL"; "UP_SYSTEM_ONLY"; "BYTES_REVERSED_HI" ].

(** Optional header, index of the data directories. *)
Definition directories := numbers "DATA_DIRECTORY_" 0
  [ "EXPORT_TABLE"; "IMPORT_TABLE"; "RESOURCE_TABLE"; "EXCEPTION_TABLE"; "CERTIFICATE_TABLE"
  ; "BASE_RELOCATION_TABLE"; "DEBUG"; "ARCHITECTURE"; "GLOBAL_PTR"; "TLS_TABLE"
  ; "LOAD_CONFIG_TABLE"; "BOUND_IMPORT"; "IAT"; "DELAY_IMPORT_DESCRIPTOR"; "CLR_RUNTIME_HEADER" ].

(** Optional header, DLL characteristics. *)
Definition dll_characteristics := bits "DLL_CHARACTERISTIC_" 0
  [ ""; ""; ""; ""; ""; "HIGH_ENTROPY_VA"; "DYNAMIC_BASE"; "FORCE_INTEGRITY"
  ; "NX_COMPAT"; "NO_ISOLATION"; "NO_SEH"; "NO_BIND"; "APPCONTAINER"; "WDM_DRIVER"
  ; "GUARD_CF"; "TERMINAL_SERVER_AWARE" ].

(** Section headers, flags.  Bit 17 has two names. *)
Definition section_flags := (bits "SECTION_CHARACTERISTIC_" 0
  [ ""; ""; ""; "TYPE_NO_PAD"; ""; "CNT_CODE"; "CNT_INITIALIZED_DATA"; "CNT_UNINITIALIZED_DATA"
  ; "LNK_OTHER"; "LNK_INFO"; ""; "LNK_REMOVE"; "LNK_COMDAT"; ""; ""; "GPREL"
  ; ""; "MEM_PURGEABLE"; "MEM_LOCKED"; "MEM_PRELOAD"; ""; ""; ""; ""
  ; "LNK_NRELOC_OVFL"; "MEM_DISCARDABLE"; "MEM_NOT_CACHED"; "MEM_NOT_PAGED"
  ; "MEM_SHARED"; "MEM_EXECUTE"; "MEM_READ"; "MEM_WRITE" ]
  ++ [("SECTION_CHARACTERISTIC_MEM_16BIT", 0x20000)%N])%list.

(** Section headers: the alignment 2^k bytes is the number k + 1 in the bits 20
    to 23. *)
Definition section_alignments := map
  (fun '(k, s) => ("SECTION_CHARACTERISTIC_ALIGN_" ++ s ++ "BYTES", N.shiftl (k + 1) 20))%N
  [(0, "1"); (1, "2"); (2, "4"); (3, "8"); (4, "16"); (5, "32"); (6, "64"); (7, "128"); (8, "256");
   (9, "512"); (10, "1024"); (11, "2048"); (12, "4096"); (13, "8192")]%N.

(** Optional header, Windows subsystem. *)
Definition subsystems := numbers "SUBSYSTEM_" 0
  [ "UNKNOWN"; "NATIVE"; "WINDOWS_GUI"; "WINDOWS_CUI"; ""; "OS2_CUI"; ""; "POSIX_CUI"
  ; "NATIVE_WINDOWS"; "WINDOWS_CE_GUI"; "EFI_APPLICATION"; "EFI_BOOT_SERVICE_DRIVER"
  ; "EFI_RUNTIME_DRIVER"; "EFI_ROM"; "XBOX"; ""; "WINDOWS_BOOT_APPLICATION" ].

(** Machine types. *)
Definition machines := map (fun '(n, v) => ("MACHINE_" ++ n, v))
  [ ("UNKNOWN", 0x0); ("AM33", 0x1d3); ("AMD64", 0x8664); ("ARM", 0x1c0); ("ARM64", 0xaa64)
  ; ("ARMNT", 0x1c4); ("EBC", 0xebc); ("I386", 0x14c); ("IA64", 0x200); ("LOONGARCH32", 0x6232)
  ; ("LOONGARCH64", 0x6264); ("M32R", 0x9041); ("MIPS16", 0x266); ("MIPSFPU", 0x366)
  ; ("MIPSFPU16", 0x466); ("POWERPC", 0x1f0); ("POWERPCFP", 0x1f1); ("R4000", 0x166)
  ; ("RISCV32", 0x5032); ("RISCV64", 0x5064); ("RISCV128", 0x5128); ("SH3", 0x1a2)
  ; ("SH3DSP", 0x1a3); ("SH4", 0x1a6); ("SH5", 0x1a8); ("THUMB", 0x1c2); ("WCEMIPSV2", 0x169) ]%N.

(** Optional header, magic. *)
Definition magics := [("PE_MAGIC_OH32", 0x10b); ("PE_MAGIC_OH32P", 0x20b)]%N.

Definition pe_numbers : list (string * N) :=
  (magics ++ characteristics ++ directories ++ dll_characteristics ++ machines
   ++ section_flags ++ section_alignments ++ subsystems)%list.
