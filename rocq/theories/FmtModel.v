(** Model of the executable formats: lib/tmp/src/msdosmz.rs,
    lib/tmp/src/pecoff.rs and the structures of lib/sys/src/ffi/elf.rs.

    A structure is its declaration: an alignment attribute and its members in
    order.  Sizes and offsets come from the layout rules (LayModel.v), integers
    in memory from FfiModel.v.  The constants of ELF are in AbiModel.v, those
    of PE in PeModel.v. *)
From Coq Require Import String.
From Verif Require Import Base FfiSpec FmtSpec LayModel FfiModel.
Local Open Scope string_scope.
Local Open Scope list_scope.
Local Open Scope res_scope.

(** Alignment of the primitive integers of 1, 2, 4 and 8 bytes on the host.
    Rust semantics: what the layout of the structures of
    lib/sys/src/ffi/elf.rs:659-861, lib/tmp/src/pecoff.rs:164-234 and
    lib/tmp/src/msdosmz.rs:180-387 depends on. *)
Record host := { order_ : order; al2 : nat; al4 : nat; al8 : nat }.

(** Rust semantics: alignment of an integer of [n] bytes, for the members of
    lib/sys/src/ffi/elf.rs:659-861. *)
Definition prim_align (h : host) (n : nat) : nat :=
  match n with 2 => al2 h | 4 => al4 h | 8 => al8 h | _ => 1 end.

(** What a member is declared as. The types that occur in
    lib/sys/src/ffi/elf.rs:659-861, lib/tmp/src/pecoff.rs:164-234 and
    lib/tmp/src/msdosmz.rs:180-387. *)
Inductive mty :=
| Le (n a : nat)        (** [Integer<LittleEndian<uN>, AlignAs<a>>] *)
| Int (sign : bool) (n : nat)  (** a primitive integer of [n] bytes *)
| Bytes (n : nat)       (** [[u8; n]] *)
| Nested (t : ty)       (** another structure *)
| Unit.                 (** [()] The type of a member; [Le] is the [Integer] of
    lib/tmp/src/msdosmz.rs:116-117 and lib/tmp/src/pecoff.rs:20-23. *)
Definition ty_of (h : host) (m : mty) : ty :=
  match m with
  | Le n a => integer_ty (wrapper_ty n (prim_align h n)) a
  | Int _ n => Prim n (prim_align h n)
  | Bytes n => Array n (Prim 1 1)
  | Nested t => t
  | Unit => Struct false 1 []
  end.

(** [#[repr(C, align(attr))] struct { members }]; [attr] is 1 without the
    attribute. Such a declaration is, for instance,
    lib/tmp/src/msdosmz.rs:179-180. *)
Record decl := { attr : nat; members : list (string * mty) }.

(** Rust semantics: the layout of a [#[repr(C)]] structure such as
    lib/tmp/src/msdosmz.rs:179-180. *)
Definition decl_ty (h : host) (d : decl) : ty :=
  Struct false (attr d) (map (fun m => ty_of h (snd m)) (members d)).

(** Position of a member. Rust semantics: members are found by name, as at
    lib/tmp/src/msdosmz.rs:578-585. *)
Fixpoint index (s : string) (ms : list (string * mty)) : option nat :=
  match ms with
  | [] => None
  | (n, _) :: ms => if String.eqb n s then Some 0
                    else match index s ms with Some i => Some (S i) | None => None end
  end.

(** [object.member]. Rust semantics, as at lib/tmp/src/msdosmz.rs:578-585. *)
Definition member (h : host) (d : decl) (s : string) (o : mem) : option mem :=
  match index s (members d) with
  | Some i => Some (field (decl_ty h d) i o)
  | None => None
  end.

(* ------------------------------------------------------------------ *)
(** ** MZ: lib/tmp/src/msdosmz.rs *)

(** lib/tmp/src/msdosmz.rs 116-117. *)
Definition U16Le := Le 2 2.
(** lib/tmp/src/msdosmz.rs 117. *)
Definition U32Le := Le 4 4.

(** lib/tmp/src/msdosmz.rs 147. *)
Definition MAGIC : list N := [0x4d; 0x5a]%N.

(** [data.chunks(2)]: slices of two elements, the last one may be shorter.
    Called at lib/tmp/src/msdosmz.rs:161. *)
Fixpoint chunks2 (data : list N) : list (list N) :=
  match data with
  | a :: b :: data => [a; b] :: chunks2 data
  | [a] => [[a]]
  | [] => []
  end.

(** lib/tmp/src/msdosmz.rs 160-173, [sum16]. *)
Definition sum16_step (acc : N) (values : list N) : res N :=
  do v <- match values with
          | [a] => Ok a
          | [a; b] => Ok (of_le [a; b])
          | _ => Panic
          end;
  Ok ((acc + v) mod 2 ^ 16)%N.

(** lib/tmp/src/msdosmz.rs 161, the [fold]. *)
Fixpoint sum16_fold (cs : list (list N)) (acc : N) : res N :=
  match cs with
  | [] => Ok acc
  | c :: cs => do acc <- sum16_step acc c; sum16_fold cs acc
  end.

(** lib/tmp/src/msdosmz.rs 160-173, the whole function. *)
Definition sum16 (data : list N) : res N := sum16_fold (chunks2 data) 0%N.

(** lib/tmp/src/msdosmz.rs 179-335, [Header]. *)
Definition Header : decl :=
  {| attr := 1;
     members :=
       [ ("magic", Bytes 2); ("cblp", U16Le); ("cp", U16Le); ("crlc", U16Le)
       ; ("cparhdr", U16Le); ("minalloc", U16Le); ("maxalloc", U16Le)
       ; ("ss", U16Le); ("sp", U16Le); ("csum", U16Le); ("ip", U16Le)
       ; ("cs", U16Le); ("lfarlc", U16Le); ("ovno", U16Le) ] |}.

(** lib/tmp/src/msdosmz.rs 342-369, [HeaderExt]. *)
Definition HeaderExt : decl :=
  {| attr := 1;
     members :=
       [ ("res", Bytes 8); ("oemid", U16Le); ("oeminfo", U16Le)
       ; ("res2", Bytes 20); ("lfanew", U32Le) ] |}.

(** lib/tmp/src/msdosmz.rs 380-387, [Relocation]. *)
Definition Relocation : decl :=
  {| attr := 1; members := [ ("offset", U16Le); ("segment", U16Le) ] |}.

(** lib/tmp/src/msdosmz.rs 394-410, 430-441 and 462-473, [from_bytes] of the
    three structures: [data] is an [&[u8; N]], whose alignment is 1. *)
Definition from_bytes (h : host) (d : decl) (data : list N) : res mem :=
  assert! (align_of (Array (List.length data) (Prim 1 1)) <=? align_of (decl_ty h d))%nat;
  assert! (List.length data =? size_of (decl_ty h d))%nat;
  Ok (map Some data).

(** lib/tmp/src/msdosmz.rs 415-422, 447-454 and 479-486, [as_bytes], for
    [&[u8; n]]; [None] would be a read of uninitialised padding. *)
Definition as_bytes (h : host) (d : decl) (n : nat) (o : mem) : res (option (list N)) :=
  assert! (align_of (Array n (Prim 1 1)) <=? align_of (decl_ty h d))%nat;
  assert! (n =? size_of (decl_ty h d))%nat;
  Ok (init o).

(** The type of the numbers in a [Le] member. [u16], [u32] in the types at
    lib/tmp/src/msdosmz.rs:116-117, [u8] and [u64] in those at
    lib/tmp/src/pecoff.rs:20-23. *)
Definition uint (n : nat) : raw :=
  {| int := {| signed := false; width := n |}; nonzero := false |}.

(** [object.member.to_native()] (lib/osi/src/ffi/endian.rs 133-141). *)
Definition number (h : host) (d : decl) (s : string) (o : mem) : option Z :=
  match index s (members d), member h d s o with
  | Some i, Some m =>
      match nth_error (members d) i with
      | Some (_, Le n _) => value (order_ h) LittleEndian (uint n) m
      | _ => None
      end
  | _, _ => None
  end.

(** A member as it appears in [Header { member: .. }]: a number converted with
    [U16Le::from_native()], or an array. [from_native] is
    lib/osi/src/ffi/endian.rs:118-126. *)
Definition member_object (h : host) (m : mty) (c : content) : option mem :=
  match m, c with
  | Le n _, Num z => make (order_ h) LittleEndian (uint n) (size_of (ty_of h m)) z
  | Bytes _, Raw l => Some (map Some l)
  | _, _ => None
  end.

(** The same for all members in order: a structure expression of a caller, for
    lib/tmp/src/msdosmz.rs:180-387. *)
Fixpoint member_objects (h : host) (ms : list (string * mty)) (cs : list content)
    : option (list mem) :=
  match ms, cs with
  | [], [] => Some []
  | (_, m) :: ms, c :: cs =>
      match member_object h m c, member_objects h ms cs with
      | Some o, Some os => Some (o :: os)
      | _, _ => None
      end
  | _, _ => None
  end.

(** The whole structure expression of a caller, for
    lib/tmp/src/msdosmz.rs:180-387. *)
Definition construct (h : host) (d : decl) (cs : list content) : option mem :=
  match member_objects h (members d) cs with
  | Some os => Some (build (decl_ty h d) os)
  | None => None
  end.

(** lib/tmp/src/msdosmz.rs 504-554, [STUB_X86]. *)
Definition STUB_X86 : list N :=
  [ 0x4d; 0x5a; 0x80; 0x00; 0x01; 0x00; 0x00; 0x00; 0x04; 0x00; 0x00; 0x00
  ; 0xff; 0xff; 0x00; 0x00; 0x80; 0x00; 0x68; 0xa7; 0x00; 0x00; 0x00; 0x00
  ; 0x40; 0x00; 0x00; 0x00
  ; 0x00; 0x00; 0x00; 0x00; 0x00; 0x00; 0x00; 0x00; 0x00; 0x00; 0x00; 0x00
  ; 0x00; 0x00; 0x00; 0x00; 0x00; 0x00; 0x00; 0x00; 0x00; 0x00; 0x00; 0x00
  ; 0x00; 0x00; 0x00; 0x00; 0x00; 0x00; 0x00; 0x00; 0x80; 0x00; 0x00; 0x00
  ; 0x0e; 0x1f; 0xba; 0x0e; 0x00; 0xb4; 0x09; 0xcd; 0x21; 0xb8; 0x01; 0x4c
  ; 0xcd; 0x21
  ; 0x54; 0x68; 0x69; 0x73; 0x20; 0x70; 0x72; 0x6f
  ; 0x67; 0x72; 0x61; 0x6d; 0x20; 0x63; 0x61; 0x6e
  ; 0x6e; 0x6f; 0x74; 0x20; 0x62; 0x65; 0x20; 0x72
  ; 0x75; 0x6e; 0x20; 0x69; 0x6e; 0x20; 0x44; 0x4f
  ; 0x53; 0x20; 0x6d; 0x6f; 0x64; 0x65; 0x2e; 0x0d
  ; 0x0d; 0x0a; 0x24
  ; 0x00; 0x00; 0x00; 0x00; 0x00; 0x00; 0x00 ]%N.

(* ------------------------------------------------------------------ *)
(** ** PE: lib/tmp/src/pecoff.rs *)

(** lib/tmp/src/pecoff.rs 20-23. *)
Definition U8Le := Le 1 1.
(** lib/tmp/src/pecoff.rs 23. *)
Definition U64Le := Le 8 8.

(** lib/tmp/src/pecoff.rs 28-29. *)
Definition PE_MAGIC_OH32 : N := 0x010b.
(** lib/tmp/src/pecoff.rs 29. *)
Definition PE_MAGIC_OH32P : N := 0x010b.

(** lib/tmp/src/pecoff.rs 31, [PE_OFFSET]. *)
Definition PE_OFFSET : nat := 0x3c.

(** lib/tmp/src/pecoff.rs 155-160: the subsystems from EFI on. *)
Definition SUBSYSTEM_EFI_APPLICATION : N := 0x0010.
(** lib/tmp/src/pecoff.rs 156. *)
Definition SUBSYSTEM_EFI_BOOT_SERVICE_DRIVER : N := 0x0011.
(** lib/tmp/src/pecoff.rs 157. *)
Definition SUBSYSTEM_EFI_RUNTIME_DRIVER : N := 0x0012.
(** lib/tmp/src/pecoff.rs 158. *)
Definition SUBSYSTEM_EFI_ROM : N := 0x0013.
(** lib/tmp/src/pecoff.rs 159. *)
Definition SUBSYSTEM_XBOX : N := 0x0014.
(** lib/tmp/src/pecoff.rs 160. *)
Definition SUBSYSTEM_WINDOWS_BOOT_APPLICATION : N := 0x0016.

(** lib/tmp/src/pecoff.rs 163-172, [Header]. *)
Definition PeHeader : decl :=
  {| attr := 1;
     members :=
       [ ("machine", U16Le); ("number_of_sections", U16Le); ("time_date_stamp", U32Le)
       ; ("pointer_to_symbol_table", U32Le); ("number_of_symbols", U32Le)
       ; ("size_of_optional_header", U16Le); ("characteristics", U16Le) ] |}.

(** lib/tmp/src/pecoff.rs 245-264: the two formats. *)
Inductive format := Pe | Pe32P.
(** lib/tmp/src/pecoff.rs 254 and 261. *)
Definition AddressSpace (f : format) := match f with Pe => U32Le | Pe32P => U64Le end.
(** lib/tmp/src/pecoff.rs 255 and 262. *)
Definition BaseOfData (f : format) := match f with Pe => U32Le | Pe32P => Unit end.

(** lib/tmp/src/pecoff.rs 174-187, [OptionalHeader]. *)
Definition OptionalHeader (f : format) : decl :=
  {| attr := 1;
     members :=
       [ ("magic", U16Le); ("major_linker_version", U8Le); ("minor_linker_version", U8Le)
       ; ("size_of_code", U32Le); ("size_of_initialized_data", U32Le)
       ; ("size_of_uninitialized_data", U32Le); ("address_of_entry_point", U32Le)
       ; ("base_of_code", U32Le); ("base_of_data", BaseOfData f) ] |}.

(** lib/tmp/src/pecoff.rs 189-214, [OptionalHeaderExt]. *)
Definition OptionalHeaderExt (f : format) : decl :=
  {| attr := 1;
     members :=
       [ ("image_base", AddressSpace f); ("section_alignment", U32Le)
       ; ("file_alignment", U32Le); ("major_operating_system_version", U16Le)
       ; ("minor_operating_system_version", U16Le); ("major_image_version", U16Le)
       ; ("minor_image_version", U16Le); ("major_subsystem_version", U16Le)
       ; ("minor_subsystem_version", U16Le); ("win32_version_value", U32Le)
       ; ("size_of_image", U32Le); ("size_of_headers", U32Le); ("check_sum", U32Le)
       ; ("subsystem", U16Le); ("dll_characteristics", U16Le)
       ; ("size_of_stack_reserve", AddressSpace f)
       ; ("size_of_stack_commit", AddressSpace f)
       ; ("size_of_heap_reserve", AddressSpace f)
       ; ("size_of_heap_commit", AddressSpace f)
       ; ("loader_flags", U32Le); ("number_of_rva_and_sizes", U32Le) ] |}.

(** lib/tmp/src/pecoff.rs 216-220, [DataDirectory]. *)
Definition DataDirectory : decl :=
  {| attr := 1; members := [ ("virtual_address", U32Le); ("size", U32Le) ] |}.

(** lib/tmp/src/pecoff.rs 222-234, [SectionHeader]. *)
Definition SectionHeader : decl :=
  {| attr := 1;
     members :=
       [ ("name", Bytes 8); ("virtual_size", U32Le); ("virtual_address", U32Le)
       ; ("size_of_raw_data", U32Le); ("pointer_to_raw_data", U32Le)
       ; ("pointer_to_relocations", U32Le); ("pointer_to_linenumbers", U32Le)
       ; ("number_of_relocations", U16Le); ("number_of_linenumbers", U16Le)
       ; ("characteristics", U32Le) ] |}.

(* ------------------------------------------------------------------ *)
(** ** ELF: lib/sys/src/ffi/elf.rs *)

(** The [u8] members of lib/sys/src/ffi/elf.rs:659-861. *)
Definition u8 := Int false 1.
(** The [u16] members of lib/sys/src/ffi/elf.rs:659-861. *)
Definition u16 := Int false 2.
(** The [u32] members of lib/sys/src/ffi/elf.rs:659-861. *)
Definition u32 := Int false 4.
(** The [u64] members of lib/sys/src/ffi/elf.rs:659-861. *)
Definition u64 := Int false 8.

(** lib/sys/src/ffi/elf.rs 657-667, [Ident]. *)
Definition Ident : decl :=
  {| attr := 1;
     members :=
       [ ("i_magic", Bytes 4); ("i_class", u8); ("i_data", u8); ("i_version", u8)
       ; ("i_osabi", u8); ("i_abiversion", u8); ("i_pad", Bytes 7) ] |}.

(** lib/sys/src/ffi/elf.rs 670-783, [impl_elf!], instantiated at 792-824 and
    832-864: [n] is the size of [$usize] and [$isize] and the argument of
    [align].  *)
Definition Ehdr (h : host) (n : nat) : decl :=
  {| attr := n;
     members :=
       [ ("e_ident", Nested (decl_ty h Ident)); ("e_type", u16); ("e_machine", u16)
       ; ("e_version", u32); ("e_entry", Int false n); ("e_phoff", Int false n)
       ; ("e_shoff", Int false n); ("e_flags", u32); ("e_ehsize", u16)
       ; ("e_phentsize", u16); ("e_phnum", u16); ("e_shentsize", u16)
       ; ("e_shnum", u16); ("e_shstrndx", u16) ] |}.

(** lib/sys/src/ffi/elf.rs 710-721, [Shdr] of the same macro. *)
Definition Shdr (n : nat) : decl :=
  {| attr := n;
     members :=
       [ ("sh_name", u32); ("sh_type", u32); ("sh_flags", Int false n)
       ; ("sh_addr", Int false n); ("sh_offset", Int false n); ("sh_size", Int false n)
       ; ("sh_link", u32); ("sh_info", u32); ("sh_addralign", Int false n)
       ; ("sh_entsize", Int false n) ] |}.

(** lib/sys/src/ffi/elf.rs 756-759, [Dyn] of the same macro. *)
Definition Dyn (n : nat) : decl :=
  {| attr := n; members := [ ("d_tag", Int false n); ("d_val", Int false n) ] |}.

(** lib/sys/src/ffi/elf.rs 767-770, [Rel] of the same macro. *)
Definition Rel (n : nat) : decl :=
  {| attr := n; members := [ ("r_offset", Int false n); ("r_info", Int false n) ] |}.

(** lib/sys/src/ffi/elf.rs 778-782, [Rela] of the same macro. *)
Definition Rela (n : nat) : decl :=
  {| attr := n;
     members := [ ("r_offset", Int false n); ("r_info", Int false n)
                ; ("r_addend", Int true n) ] |}.

(** lib/sys/src/ffi/elf.rs 799-809 and 839-849, [Phdr]. *)
Definition Phdr32 : decl :=
  {| attr := 4;
     members :=
       [ ("p_type", u32); ("p_offset", u32); ("p_vaddr", u32); ("p_paddr", u32)
       ; ("p_filesz", u32); ("p_memsz", u32); ("p_flags", u32); ("p_align", u32) ] |}.

(** lib/sys/src/ffi/elf.rs 840-849, [Phdr] of the 64-bit format. *)
Definition Phdr64 : decl :=
  {| attr := 8;
     members :=
       [ ("p_type", u32); ("p_flags", u32); ("p_offset", u64); ("p_vaddr", u64)
       ; ("p_paddr", u64); ("p_filesz", u64); ("p_memsz", u64); ("p_align", u64) ] |}.

(** lib/sys/src/ffi/elf.rs 813-821 and 853-861, [Sym]. *)
Definition Sym32 : decl :=
  {| attr := 4;
     members :=
       [ ("st_name", u32); ("st_value", u32); ("st_size", u32); ("st_info", u8)
       ; ("st_other", u8); ("st_shndx", u16) ] |}.

(** lib/sys/src/ffi/elf.rs 854-861, [Sym] of the 64-bit format. *)
Definition Sym64 : decl :=
  {| attr := 8;
     members :=
       [ ("st_name", u32); ("st_info", u8); ("st_other", u8); ("st_shndx", u16)
       ; ("st_value", u64); ("st_size", u64) ] |}.
