(** Model of the choice of platform modules: the alias [target] of
    [osi::ffi::abi], and [target], [native] and [libc] of [sys::ffi::linux].

    A module is represented by where its source is and by the ABI module it is
    compiled with.  Not modelled: that rustc finds the source files. *)
From Coq Require Import String.
From Coq Require Import List.
From Verif Require Import Base FfiSpec LayModel FfiModel AbiModel PlatSpec.
From Verif Require AbiSpec.
Import AbiSpec(platform, Aarch64, X86, X86_64, symbol, I8, I16, I32, I64, I128, Isize,
  U8, U16, U32, U64, U128, Usize, F32, F64, Addr, Ptr).
Local Open Scope string_scope.

(** Rust semantics, not code in /repo: the items with [#[cfg]] that the
    compiler keeps, as at lib/osi/src/ffi/abi.rs:190-220. *)
Definition kept {A} (t : target) (l : list ((target -> bool) * A)) : list A :=
  map snd (filter (fun i => fst i t) l).

(** lib/osi/src/ffi/abi.rs 48, 76, 104, 134, 164: the modules of the file. *)
Definition abi_modules : list string :=
  ["shared"; "native"; "aarch64_sysv"; "x86_sysv"; "x86_64_sysv"].

(** lib/osi/src/ffi/abi.rs 190-220: the items [pub use .. as target]. *)
Definition abi_uses : list ((target -> bool) * string) :=
  [ (fun t => String.eqb (arch t) "aarch64" && String.eqb (family t) "unix", "aarch64_sysv")
  ; (fun t => String.eqb (arch t) "x86" && String.eqb (family t) "unix", "x86_sysv")
  ; (fun t => String.eqb (arch t) "x86_64" && String.eqb (family t) "unix", "x86_64_sysv")
  ; (fun t => String.eqb (arch t) "x86" && String.eqb (env t) "msvc" && String.eqb (family t) "windows", "x86_win")
  ; (fun t => String.eqb (arch t) "x86_64" && String.eqb (env t) "msvc" && String.eqb (family t) "windows",
     "x86_64_win") ]%bool.

(** What [osi::ffi::abi::target] is (lib/osi/src/ffi/abi.rs 190-220). *)
Inductive alias :=
| Fails               (* the file does not compile: no such module, or defined twice *)
| Absent
| Names (m : string).

(** lib/osi/src/ffi/abi.rs 190-220, with the rules of Rust for [use]. *)
Definition abi_target (t : target) : alias :=
  match kept t abi_uses with
  | [] => Absent
  | [m] => if existsb (String.eqb m) abi_modules then Names m else Fails
  | _ => Fails
  end.

(** lib/sys/src/ffi/linux/libc/mod.rs 20-42: the types of crate libc are
    aliases of the primitives on Linux ([__u16] is [u16], [size_t] is [usize]
    and so on); that part is not code in /repo. *)
Definition libc_abi (h : machine) (t : symbol) : ty :=
  let i n := prim h IntClass n in
  match t with
  | I8 => i 1 | I16 => i 2 | I32 => i 4 | I64 => i 8 | I128 => i 16 | Isize => i (address h)
  | U8 => i 1 | U16 => i 2 | U32 => i 4 | U64 => i 8 | U128 => i 16 | Usize => i (address h)
  | F32 => prim h FloatClass 4 | F64 => prim h FloatClass 8
  | Addr => native h Addr | Ptr => native h Ptr
  end.

(** The modules of lib/osi/src/ffi/abi.rs:76-188 by name, and the module [abi]
    of lib/sys/src/ffi/linux/libc/mod.rs:20-42. *)
Definition abi_named (m : string) : option (machine -> symbol -> ty) :=
  if String.eqb m "native" then Some native
  else if String.eqb m "aarch64_sysv" then Some aarch64_sysv
  else if String.eqb m "x86_sysv" then Some x86_sysv
  else if String.eqb m "x86_64_sysv" then Some x86_64_sysv
  else if String.eqb m "libc::abi" then Some libc_abi
  else None.

(** A platform module: file of [mod inner] and what is used as [abi], the two
    things lib/sys/src/ffi/linux/mod.rs:89-95 and 117-124 differ in. *)
Record platform_module := { source : string; uses : string }.

(** lib/sys/src/ffi/linux/mod.rs 76-126, [impl_platform!]: the modules and the
    alias it expands to; [$cfg] always is [cfg(target_arch = ..)]. *)
Definition impl_platform (t : target) (platform cfg path abi : string) : list (string * platform_module) :=
  [(platform, {| source := path; uses := abi |})]
  ++ (if String.eqb (arch t) cfg then [("target", {| source := path; uses := abi |})] else [])
  ++ (if String.eqb (arch t) cfg then [("native", {| source := path; uses := "native" |})] else []).

(** lib/sys/src/ffi/linux/mod.rs 74 and 128-147, and the [#![cfg]] at
    lib/sys/src/ffi/linux/libc/mod.rs:18. *)
Definition linux_modules (t : target) : list (string * platform_module) :=
  (if libc_feature t then [("libc", {| source := "libc/errno.rs"; uses := "libc::abi" |})] else [])
  ++ impl_platform t "aarch64" "aarch64" "../aarch64/mod.rs" "aarch64_sysv"
  ++ impl_platform t "x86" "x86" "../x86/mod.rs" "x86_sysv"
  ++ impl_platform t "x86_64" "x86_64" "../x86_64/mod.rs" "x86_64_sysv".

(** Rust semantics, not code in /repo: the module a path
    [sys::ffi::linux::name] means (lib/sys/src/ffi/linux/mod.rs:74-147). *)
Fixpoint find_module (name : string) (l : list (string * platform_module)) : option platform_module :=
  match l with
  | [] => None
  | (n, m) :: l => if String.eqb n name then Some m else find_module name l
  end.
(** lib/sys/src/ffi/linux/mod.rs:74-147 by name. *)
Definition linux_module (t : target) (name : string) : option platform_module :=
  find_module name (linux_modules t).

(** lib/sys/src/ffi/linux/libc/errno.rs 3-137: the names with the constant of
    crate libc they are set to. *)
Definition libc_errno : list (string * string) :=
  [ ("EPERM", "EPERM"); ("ENOENT", "ENOENT"); ("ESRCH", "ESRCH")
  ; ("EINTR", "EINTR"); ("EIO", "EIO"); ("ENXIO", "ENXIO")
  ; ("E2BIG", "E2BIG"); ("ENOEXEC", "ENOEXEC"); ("EBADF", "EBADF")
  ; ("ECHILD", "ECHILD"); ("EAGAIN", "EAGAIN"); ("ENOMEM", "ENOMEM")
  ; ("EACCES", "EACCES"); ("EFAULT", "EFAULT"); ("ENOTBLK", "ENOTBLK")
  ; ("EBUSY", "EBUSY"); ("EEXIST", "EEXIST"); ("EXDEV", "EXDEV")
  ; ("ENODEV", "ENODEV"); ("ENOTDIR", "ENOTDIR"); ("EISDIR", "EISDIR")
  ; ("EINVAL", "EINVAL"); ("ENFILE", "ENFILE"); ("EMFILE", "EMFILE")
  ; ("ENOTTY", "ENOTTY"); ("ETXTBSY", "ETXTBSY"); ("EFBIG", "EFBIG")
  ; ("ENOSPC", "ENOSPC"); ("ESPIPE", "ESPIPE"); ("EROFS", "EROFS")
  ; ("EMLINK", "EMLINK"); ("EPIPE", "EPIPE"); ("EDOM", "EDOM")
  ; ("ERANGE", "ERANGE"); ("EDEADLK", "EDEADLK"); ("ENAMETOOLONG", "ENAMETOOLONG")
  ; ("ENOLCK", "ENOLCK"); ("ENOSYS", "ENOSYS"); ("ENOTEMPTY", "ENOTEMPTY")
  ; ("ELOOP", "ELOOP"); ("ENOMSG", "ENOMSG"); ("EIDRM", "EIDRM")
  ; ("ECHRNG", "ECHRNG"); ("EL2NSYNC", "EL2NSYNC"); ("EL3HLT", "EL3HLT")
  ; ("EL3RST", "EL3RST"); ("ELNRNG", "ELNRNG"); ("EUNATCH", "EUNATCH")
  ; ("ENOCSI", "ENOCSI"); ("EL2HLT", "EL2HLT"); ("EBADE", "EBADE")
  ; ("EBADR", "EBADR"); ("EXFULL", "EXFULL"); ("ENOANO", "ENOANO")
  ; ("EBADRQC", "EBADRQC"); ("EBADSLT", "EBADSLT"); ("EBFONT", "EBFONT")
  ; ("ENOSTR", "ENOSTR"); ("ENODATA", "ENODATA"); ("ETIME", "ETIME")
  ; ("ENOSR", "ENOSR"); ("ENONET", "ENONET"); ("ENOPKG", "ENOPKG")
  ; ("EREMOTE", "EREMOTE"); ("ENOLINK", "ENOLINK"); ("EADV", "EADV")
  ; ("ESRMNT", "ESRMNT"); ("ECOMM", "ECOMM"); ("EPROTO", "EPROTO")
  ; ("EMULTIHOP", "EMULTIHOP"); ("EDOTDOT", "EDOTDOT"); ("EBADMSG", "EBADMSG")
  ; ("EOVERFLOW", "EOVERFLOW"); ("ENOTUNIQ", "ENOTUNIQ"); ("EBADFD", "EBADFD")
  ; ("EREMCHG", "EREMCHG"); ("ELIBACC", "ELIBACC"); ("ELIBBAD", "ELIBBAD")
  ; ("ELIBSCN", "ELIBSCN"); ("ELIBMAX", "ELIBMAX"); ("ELIBEXEC", "ELIBEXEC")
  ; ("EILSEQ", "EILSEQ"); ("ERESTART", "ERESTART"); ("ESTRPIPE", "ESTRPIPE")
  ; ("EUSERS", "EUSERS"); ("ENOTSOCK", "ENOTSOCK"); ("EDESTADDRREQ", "EDESTADDRREQ")
  ; ("EMSGSIZE", "EMSGSIZE"); ("EPROTOTYPE", "EPROTOTYPE"); ("ENOPROTOOPT", "ENOPROTOOPT")
  ; ("EPROTONOSUPPORT", "EPROTONOSUPPORT"); ("ESOCKTNOSUPPORT", "ESOCKTNOSUPPORT"); ("EOPNOTSUPP", "EOPNOTSUPP")
  ; ("EPFNOSUPPORT", "EPFNOSUPPORT"); ("EAFNOSUPPORT", "EAFNOSUPPORT"); ("EADDRINUSE", "EADDRINUSE")
  ; ("EADDRNOTAVAIL", "EADDRNOTAVAIL"); ("ENETDOWN", "ENETDOWN"); ("ENETUNREACH", "ENETUNREACH")
  ; ("ENETRESET", "ENETRESET"); ("ECONNABORTED", "ECONNABORTED"); ("ECONNRESET", "ECONNRESET")
  ; ("ENOBUFS", "ENOBUFS"); ("EISCONN", "EISCONN"); ("ENOTCONN", "ENOTCONN")
  ; ("ESHUTDOWN", "ESHUTDOWN"); ("ETOOMANYREFS", "ETOOMANYREFS"); ("ETIMEDOUT", "ETIMEDOUT")
  ; ("ECONNREFUSED", "ECONNREFUSED"); ("EHOSTDOWN", "EHOSTDOWN"); ("EHOSTUNREACH", "EHOSTUNREACH")
  ; ("EALREADY", "EALREADY"); ("EINPROGRESS", "EINPROGRESS"); ("ESTALE", "ESTALE")
  ; ("EUCLEAN", "EUCLEAN"); ("ENOTNAM", "ENOTNAM"); ("ENAVAIL", "ENAVAIL")
  ; ("EISNAM", "EISNAM"); ("EREMOTEIO", "EREMOTEIO"); ("EDQUOT", "EDQUOT")
  ; ("ENOMEDIUM", "ENOMEDIUM"); ("EMEDIUMTYPE", "EMEDIUMTYPE"); ("ECANCELED", "ECANCELED")
  ; ("ENOKEY", "ENOKEY"); ("EKEYEXPIRED", "EKEYEXPIRED"); ("EKEYREVOKED", "EKEYREVOKED")
  ; ("EKEYREJECTED", "EKEYREJECTED"); ("EOWNERDEAD", "EOWNERDEAD"); ("ENOTRECOVERABLE", "ENOTRECOVERABLE")
  ; ("ERFKILL", "ERFKILL"); ("EHWPOISON", "EHWPOISON"); ("EWOULDBLOCK", "EWOULDBLOCK")
  ; ("EDEADLOCK", "EDEADLOCK") ].

(** lib/sys/src/ffi/linux/libc/errno.rs 3-137: [libc::X as _] turns the [i32]
    of crate libc (given by [crate], not code in /repo) into a [u16], modulo
    65536. *)
Fixpoint libc_const (crate : string -> option Z) (name : string) (l : list (string * string)) : option Z :=
  match l with
  | [] => None
  | (n, c) :: l =>
      if String.eqb n name then match crate c with Some z => Some (z mod 65536)%Z | None => None end
      else libc_const crate name l
  end.

(** The constants in memory, of the modules whose sources are
    lib/sys/src/ffi/linux/{aarch64,x86,x86_64}/mod.rs, which all are
    lib/sys/src/ffi/linux/common/errno.rs:24-162 under another [abi], and
    lib/sys/src/ffi/linux/libc/errno.rs:3-137. *)
Definition module_errno (crate : string -> option Z) (h : machine) (m : platform_module) (name : string)
  : option mem :=
  if String.eqb (source m) "libc/errno.rs" then
    match libc_const crate name libc_errno with
    | Some z => make (byte_order h) Native u16 (size_of (libc_abi h U16)) z
    | None => None
    end
  else if String.eqb (uses m) "native" then errno_native h name
  else if String.eqb (uses m) "aarch64_sysv" then errno_of h Aarch64 name
  else if String.eqb (uses m) "x86_sysv" then errno_of h X86 name
  else if String.eqb (uses m) "x86_64_sysv" then errno_of h X86_64 name
  else None.
