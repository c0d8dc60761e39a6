(** Specification vocabulary and field tables for the executable formats.

    The tables are those of the format specifications (the MS-DOS MZ header as
    documented by Microsoft, the PE/COFF specification, the System V gABI for
    ELF), not derived from the model. *)
From Coq Require Import String.
From Coq Require Import List.
From Verif Require Import Base FfiSpec.
Local Open Scope string_scope.
Local Open Scope list_scope.

(** A field of a record in a file: where it starts, how many bytes it has, and
    whether it is a number or an array of bytes. *)
Record entry := { name : string; start : nat; len : nat; numeric : bool }.
Definition table := list entry.

Definition num (s : string) (o n : nat) := {| name := s; start := o; len := n; numeric := true |}.
Definition raw_ (s : string) (o n : nat) := {| name := s; start := o; len := n; numeric := false |}.

(** The fields follow each other from [o] to [size] without a gap. *)
Fixpoint tiles (o : nat) (t : table) (size : nat) : Prop :=
  match t with
  | [] => o = size
  | e :: t => start e = o /\ tiles (o + len e) t size
  end.

(** The number that bytes stand for, least significant byte first. *)
Fixpoint little (bs : list N) : N :=
  match bs with
  | [] => 0
  | b :: bs => b + 256 * little bs
  end%N.

(** What a field holds: a number, or bytes. *)
Inductive content := Num (z : Z) | Raw (l : list N).

(** The field can hold it: a number of [n] bytes is below [256 ^ n]. *)
Definition fits (e : entry) (c : content) : Prop :=
  match c with
  | Num z => numeric e = true /\ (0 <= z < 256 ^ Z.of_nat (len e))%Z
  | Raw l => numeric e = false /\ length l = len e /\ bytes l
  end.

(** [bs] is that content in the file: numbers are little-endian. *)
Definition encodes (e : entry) (c : content) (bs : list N) : Prop :=
  match c with
  | Num z => stored LittleFirst (len e) (Z.to_N z) bs
  | Raw l => bs = l
  end.

(** The 16-bit words of a byte string; a last odd byte is a word by itself. *)
Fixpoint words (bs : list N) : list N :=
  match bs with
  | a :: b :: bs => (a + 256 * b)%N :: words bs
  | [a] => [a]
  | [] => []
  end.

Definition total (ws : list N) : N := fold_right N.add 0%N ws.

(* ------------------------------------------------------------------ *)
(** ** MZ *)

Definition mz_header : table :=
  [ raw_ "magic" 0 2; num "cblp" 2 2; num "cp" 4 2; num "crlc" 6 2
  ; num "cparhdr" 8 2; num "minalloc" 10 2; num "maxalloc" 12 2; num "ss" 14 2
  ; num "sp" 16 2; num "csum" 18 2; num "ip" 20 2; num "cs" 22 2
  ; num "lfarlc" 24 2; num "ovno" 26 2 ].

(** Offsets within the extended header, which starts at 28 of the file, so
    that [lfanew] is at 0x3c. *)
Definition mz_ext : table :=
  [ raw_ "res" 0 8; num "oemid" 8 2; num "oeminfo" 10 2; raw_ "res2" 12 20
  ; num "lfanew" 32 4 ].

Definition mz_relocation : table := [ num "offset" 0 2; num "segment" 2 2 ].

(* ------------------------------------------------------------------ *)
(** ** PE *)

Definition pe_header : table :=
  [ num "machine" 0 2; num "number_of_sections" 2 2; num "time_date_stamp" 4 4
  ; num "pointer_to_symbol_table" 8 4; num "number_of_symbols" 12 4
  ; num "size_of_optional_header" 16 2; num "characteristics" 18 2 ].

(** The standard fields of the optional header; PE32+ has no [base_of_data]. *)
Definition pe_standard : table :=
  [ num "magic" 0 2; num "major_linker_version" 2 1; num "minor_linker_version" 3 1
  ; num "size_of_code" 4 4; num "size_of_initialized_data" 8 4
  ; num "size_of_uninitialized_data" 12 4; num "address_of_entry_point" 16 4
  ; num "base_of_code" 20 4 ].

Definition pe32_standard : table := pe_standard ++ [ num "base_of_data" 24 4 ].

(** The Windows fields, with offsets from the start of the optional header, for
    PE32 and PE32+. *)
Definition pe32_windows : table :=
  [ num "image_base" 28 4; num "section_alignment" 32 4; num "file_alignment" 36 4
  ; num "major_operating_system_version" 40 2; num "minor_operating_system_version" 42 2
  ; num "major_image_version" 44 2; num "minor_image_version" 46 2
  ; num "major_subsystem_version" 48 2; num "minor_subsystem_version" 50 2
  ; num "win32_version_value" 52 4; num "size_of_image" 56 4
  ; num "size_of_headers" 60 4; num "check_sum" 64 4; num "subsystem" 68 2
  ; num "dll_characteristics" 70 2; num "size_of_stack_reserve" 72 4
  ; num "size_of_stack_commit" 76 4; num "size_of_heap_reserve" 80 4
  ; num "size_of_heap_commit" 84 4; num "loader_flags" 88 4
  ; num "number_of_rva_and_sizes" 92 4 ].

Definition pe32p_windows : table :=
  [ num "image_base" 24 8; num "section_alignment" 32 4; num "file_alignment" 36 4
  ; num "major_operating_system_version" 40 2; num "minor_operating_system_version" 42 2
  ; num "major_image_version" 44 2; num "minor_image_version" 46 2
  ; num "major_subsystem_version" 48 2; num "minor_subsystem_version" 50 2
  ; num "win32_version_value" 52 4; num "size_of_image" 56 4
  ; num "size_of_headers" 60 4; num "check_sum" 64 4; num "subsystem" 68 2
  ; num "dll_characteristics" 70 2; num "size_of_stack_reserve" 72 8
  ; num "size_of_stack_commit" 80 8; num "size_of_heap_reserve" 88 8
  ; num "size_of_heap_commit" 96 8; num "loader_flags" 104 4
  ; num "number_of_rva_and_sizes" 108 4 ].

Definition pe_directory : table := [ num "virtual_address" 0 4; num "size" 4 4 ].

Definition pe_section : table :=
  [ raw_ "name" 0 8; num "virtual_size" 8 4; num "virtual_address" 12 4
  ; num "size_of_raw_data" 16 4; num "pointer_to_raw_data" 20 4
  ; num "pointer_to_relocations" 24 4; num "pointer_to_linenumbers" 28 4
  ; num "number_of_relocations" 32 2; num "number_of_linenumbers" 34 2
  ; num "characteristics" 36 4 ].

(* ------------------------------------------------------------------ *)
(** ** ELF *)

Definition elf_ident : table :=
  [ raw_ "i_magic" 0 4; num "i_class" 4 1; num "i_data" 5 1; num "i_version" 6 1
  ; num "i_osabi" 7 1; num "i_abiversion" 8 1; raw_ "i_pad" 9 7 ].

Definition elf32_ehdr : table :=
  [ raw_ "e_ident" 0 16; num "e_type" 16 2; num "e_machine" 18 2; num "e_version" 20 4
  ; num "e_entry" 24 4; num "e_phoff" 28 4; num "e_shoff" 32 4; num "e_flags" 36 4
  ; num "e_ehsize" 40 2; num "e_phentsize" 42 2; num "e_phnum" 44 2
  ; num "e_shentsize" 46 2; num "e_shnum" 48 2; num "e_shstrndx" 50 2 ].

Definition elf64_ehdr : table :=
  [ raw_ "e_ident" 0 16; num "e_type" 16 2; num "e_machine" 18 2; num "e_version" 20 4
  ; num "e_entry" 24 8; num "e_phoff" 32 8; num "e_shoff" 40 8; num "e_flags" 48 4
  ; num "e_ehsize" 52 2; num "e_phentsize" 54 2; num "e_phnum" 56 2
  ; num "e_shentsize" 58 2; num "e_shnum" 60 2; num "e_shstrndx" 62 2 ].

Definition elf32_shdr : table :=
  [ num "sh_name" 0 4; num "sh_type" 4 4; num "sh_flags" 8 4; num "sh_addr" 12 4
  ; num "sh_offset" 16 4; num "sh_size" 20 4; num "sh_link" 24 4; num "sh_info" 28 4
  ; num "sh_addralign" 32 4; num "sh_entsize" 36 4 ].

Definition elf64_shdr : table :=
  [ num "sh_name" 0 4; num "sh_type" 4 4; num "sh_flags" 8 8; num "sh_addr" 16 8
  ; num "sh_offset" 24 8; num "sh_size" 32 8; num "sh_link" 40 4; num "sh_info" 44 4
  ; num "sh_addralign" 48 8; num "sh_entsize" 56 8 ].

Definition elf32_phdr : table :=
  [ num "p_type" 0 4; num "p_offset" 4 4; num "p_vaddr" 8 4; num "p_paddr" 12 4
  ; num "p_filesz" 16 4; num "p_memsz" 20 4; num "p_flags" 24 4; num "p_align" 28 4 ].

Definition elf64_phdr : table :=
  [ num "p_type" 0 4; num "p_flags" 4 4; num "p_offset" 8 8; num "p_vaddr" 16 8
  ; num "p_paddr" 24 8; num "p_filesz" 32 8; num "p_memsz" 40 8; num "p_align" 48 8 ].

Definition elf32_sym : table :=
  [ num "st_name" 0 4; num "st_value" 4 4; num "st_size" 8 4; num "st_info" 12 1
  ; num "st_other" 13 1; num "st_shndx" 14 2 ].

Definition elf64_sym : table :=
  [ num "st_name" 0 4; num "st_info" 4 1; num "st_other" 5 1; num "st_shndx" 6 2
  ; num "st_value" 8 8; num "st_size" 16 8 ].

Definition elf_dyn (n : nat) : table := [ num "d_tag" 0 n; num "d_val" n n ].
Definition elf_rel (n : nat) : table := [ num "r_offset" 0 n; num "r_info" n n ].
Definition elf_rela (n : nat) : table :=
  [ num "r_offset" 0 n; num "r_info" n n; num "r_addend" (n + n) n ].

(** The fields the gABI declares as signed numbers ([Elf32_Sword] and
    [Elf64_Sxword]); all others are unsigned. *)
Definition elf_signed : list string := [ "d_tag"; "r_addend" ].
