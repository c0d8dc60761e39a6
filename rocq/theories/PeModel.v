(** Model of the constants of lib/tmp/src/pecoff.rs. *)
From Coq Require Import String List NArith.
Import ListNotations.
Local Open Scope string_scope.

(** lib/tmp/src/pecoff.rs 28-29 and 33-160: all integer constants, with their
    values, in the order of the file.  The widths (u16, u32) are not modelled:
    see [pe_constants_fit]. *)
Definition pe_constants : list (string * N) := (
  [ ("PE_MAGIC_OH32", 0x10b); ("PE_MAGIC_OH32P", 0x10b)
  ; ("CHARACTERISTIC_RELOCS_STRIPPED", 0x1); ("CHARACTERISTIC_EXECUTABLE_IMAGE", 0x2)
  ; ("CHARACTERISTIC_LINE_NUMS_STRIPPED", 0x4); ("CHARACTERISTIC_LOCAL_SYMS_STRIPPED", 0x8)
  ; ("CHARACTERISTIC_AGGRESSIVE_WS_TRIM", 0x10); ("CHARACTERISTIC_LARGE_ADDRESS_AWARE", 0x20)
  ; ("CHARACTERISTIC_BYTES_REVERSED_LO", 0x80); ("CHARACTERISTIC_32BIT_MACHINE", 0x100)
  ; ("CHARACTERISTIC_DEBUG_STRIPPED", 0x200); ("CHARACTERISTIC_REMOVABLE_RUN_FROM_SWAP", 0x400)
  ; ("CHARACTERISTIC_NET_RUN_FROM_SWAP", 0x800); ("CHARACTERISTIC_SYSTEM", 0x1000)
  ; ("CHARACTERISTIC_DLL", 0x2000); ("CHARACTERISTIC_UP_SYSTEM_ONLY", 0x4000)
  ; ("CHARACTERISTIC_BYTES_REVERSED_HI", 0x8000); ("DATA_DIRECTORY_EXPORT_TABLE", 0x0)
  ; ("DATA_DIRECTORY_IMPORT_TABLE", 0x1); ("DATA_DIRECTORY_RESOURCE_TABLE", 0x2)
  ; ("DATA_DIRECTORY_EXCEPTION_TABLE", 0x3); ("DATA_DIRECTORY_CERTIFICATE_TABLE", 0x4)
  ; ("DATA_DIRECTORY_BASE_RELOCATION_TABLE", 0x5); ("DATA_DIRECTORY_DEBUG", 0x6)
  ; ("DATA_DIRECTORY_ARCHITECTURE", 0x7); ("DATA_DIRECTORY_GLOBAL_PTR", 0x8)
  ; ("DATA_DIRECTORY_TLS_TABLE", 0x9); ("DATA_DIRECTORY_LOAD_CONFIG_TABLE", 0xa)
  ; ("DATA_DIRECTORY_BOUND_IMPORT", 0xb); ("DATA_DIRECTORY_IAT", 0xc)
  ; ("DATA_DIRECTORY_DELAY_IMPORT_DESCRIPTOR", 0xd); ("DATA_DIRECTORY_CLR_RUNTIME_HEADER", 0xe)
  ; ("DLL_CHARACTERISTIC_HIGH_ENTROPY_VA", 0x20); ("DLL_CHARACTERISTIC_DYNAMIC_BASE", 0x40)
  ; ("DLL_CHARACTERISTIC_FORCE_INTEGRITY", 0x80); ("DLL_CHARACTERISTIC_NX_COMPAT", 0x100)
  ; ("DLL_CHARACTERISTIC_NO_ISOLATION", 0x200); ("DLL_CHARACTERISTIC_NO_SEH", 0x400)
  ; ("DLL_CHARACTERISTIC_NO_BIND", 0x800); ("DLL_CHARACTERISTIC_APPCONTAINER", 0x1000)
  ; ("DLL_CHARACTERISTIC_WDM_DRIVER", 0x2000); ("DLL_CHARACTERISTIC_GUARD_CF", 0x4000)
  ; ("DLL_CHARACTERISTIC_TERMINAL_SERVER_AWARE", 0x8000); ("MACHINE_UNKNOWN", 0x0)
  ; ("MACHINE_AM33", 0x1d3); ("MACHINE_AMD64", 0x8664)
  ; ("MACHINE_ARM", 0x1c0); ("MACHINE_ARM64", 0xaa64)
  ; ("MACHINE_ARMNT", 0x1c4); ("MACHINE_EBC", 0xebc)
  ; ("MACHINE_I386", 0x14c); ("MACHINE_IA64", 0x200)
  ; ("MACHINE_LOONGARCH32", 0x6232); ("MACHINE_LOONGARCH64", 0x6264)
  ; ("MACHINE_M32R", 0x9041); ("MACHINE_MIPS16", 0x266)
  ; ("MACHINE_MIPSFPU", 0x366); ("MACHINE_MIPSFPU16", 0x466)
  ; ("MACHINE_POWERPC", 0x1f0); ("MACHINE_POWERPCFP", 0x1f1)
  ; ("MACHINE_R4000", 0x166); ("MACHINE_RISCV32", 0x5032)
  ; ("MACHINE_RISCV64", 0x5064); ("MACHINE_RISCV128", 0x5128)
  ; ("MACHINE_SH3", 0x1a2); ("MACHINE_SH3DSP", 0x1a3)
  ; ("MACHINE_SH4", 0x1a6); ("MACHINE_SH5", 0x1a8)
  ; ("MACHINE_THUMB", 0x1c2); ("MACHINE_WCEMIPSV2", 0x169)
  ; ("SECTION_CHARACTERISTIC_TYPE_NO_PAD", 0x8); ("SECTION_CHARACTERISTIC_CNT_CODE", 0x20)
  ; ("SECTION_CHARACTERISTIC_CNT_INITIALIZED_DATA", 0x40); ("SECTION_CHARACTERISTIC_CNT_UNINITIALIZED_DATA", 0x80)
  ; ("SECTION_CHARACTERISTIC_LNK_OTHER", 0x100); ("SECTION_CHARACTERISTIC_LNK_INFO", 0x200)
  ; ("SECTION_CHARACTERISTIC_LNK_REMOVE", 0x800); ("SECTION_CHARACTERISTIC_LNK_COMDAT", 0x1000)
  ; ("SECTION_CHARACTERISTIC_GPREL", 0x8000); ("SECTION_CHARACTERISTIC_MEM_PURGEABLE", 0x20000)
  ; ("SECTION_CHARACTERISTIC_MEM_16BIT", 0x20000); ("SECTION_CHARACTERISTIC_MEM_LOCKED", 0x40000)
  ; ("SECTION_CHARACTERISTIC_MEM_PRELOAD", 0x80000); ("SECTION_CHARACTERISTIC_ALIGN_1BYTES", 0x100000)
  ; ("SECTION_CHARACTERISTIC_ALIGN_2BYTES", 0x200000); ("SECTION_CHARACTERISTIC_ALIGN_4BYTES", 0x300000)
  ; ("SECTION_CHARACTERISTIC_ALIGN_8BYTES", 0x400000); ("SECTION_CHARACTERISTIC_ALIGN_16BYTES", 0x500000)
  ; ("SECTION_CHARACTERISTIC_ALIGN_32BYTES", 0x600000); ("SECTION_CHARACTERISTIC_ALIGN_64BYTES", 0x700000)
  ; ("SECTION_CHARACTERISTIC_ALIGN_128BYTES", 0x800000); ("SECTION_CHARACTERISTIC_ALIGN_256BYTES", 0x900000)
  ; ("SECTION_CHARACTERISTIC_ALIGN_512BYTES", 0xa00000); ("SECTION_CHARACTERISTIC_ALIGN_1024BYTES", 0xb00000)
  ; ("SECTION_CHARACTERISTIC_ALIGN_2048BYTES", 0xc00000); ("SECTION_CHARACTERISTIC_ALIGN_4096BYTES", 0xd00000)
  ; ("SECTION_CHARACTERISTIC_ALIGN_8192BYTES", 0xe00000); ("SECTION_CHARACTERISTIC_LNK_NRELOC_OVFL", 0x1000000)
  ; ("SECTION_CHARACTERISTIC_MEM_DISCARDABLE", 0x2000000); ("SECTION_CHARACTERISTIC_MEM_NOT_CACHED", 0x4000000)
  ; ("SECTION_CHARACTERISTIC_MEM_NOT_PAGED", 0x8000000); ("SECTION_CHARACTERISTIC_MEM_SHARED", 0x10000000)
  ; ("SECTION_CHARACTERISTIC_MEM_EXECUTE", 0x20000000); ("SECTION_CHARACTERISTIC_MEM_READ", 0x40000000)
  ; ("SECTION_CHARACTERISTIC_MEM_WRITE", 0x80000000); ("SUBSYSTEM_UNKNOWN", 0x0)
  ; ("SUBSYSTEM_NATIVE", 0x1); ("SUBSYSTEM_WINDOWS_GUI", 0x2)
  ; ("SUBSYSTEM_WINDOWS_CUI", 0x3); ("SUBSYSTEM_OS2_CUI", 0x5)
  ; ("SUBSYSTEM_POSIX_CUI", 0x7); ("SUBSYSTEM_NATIVE_WINDOWS", 0x8)
  ; ("SUBSYSTEM_WINDOWS_CE_GUI", 0x9); ("SUBSYSTEM_EFI_APPLICATION", 0x10)
  ; ("SUBSYSTEM_EFI_BOOT_SERVICE_DRIVER", 0x11); ("SUBSYSTEM_EFI_RUNTIME_DRIVER", 0x12)
  ; ("SUBSYSTEM_EFI_ROM", 0x13); ("SUBSYSTEM_XBOX", 0x14)
  ; ("SUBSYSTEM_WINDOWS_BOOT_APPLICATION", 0x16) ])%N.

(** lib/tmp/src/pecoff.rs 25, [INVALID_TIMESTAMPS]. *)
Definition INVALID_TIMESTAMPS : list N := [0x00000000; 0xffffffff]%N.
(** lib/tmp/src/pecoff.rs 27, [PE_MAGIC]. *)
Definition PE_MAGIC : list N := [0x50; 0x45; 0x00; 0x00]%N.
