(** Model of [osi::error], [osi::compat] and the markers of [osi::align]. *)
From Coq Require Import String.
From Coq Require Import List.
From Verif Require Import Base LayModel.
From Verif Require DvarModel.
From Verif Require Import EtcSpec.
Local Open Scope string_scope.

(* ------------------------------------------------------------------ *)
(** ** Uncaught *)

(** Rust semantics: a formatter [W] is written to piece by piece, and
    formatting ends with the first piece that is refused. A formatting
    function is any function that writes and says whether it succeeded. The
    implementations called by [write!] at lib/osi/src/error.rs:39-74. *)
Definition formatting (W : Type) : Type := W -> W * bool.
(** What an object behind the traits at lib/osi/src/error.rs:14-30 can do;
    [cause] stands for its [source]. *)
Record value (W : Type) := { debug : formatting W; display : formatting W; cause : option nat }.
Arguments debug {W}. Arguments display {W}. Arguments cause {W}.

Section Uncaught.
Context {W : Type} (put : W -> string -> W * bool).

(** lib/osi/src/error.rs 13-31. *)
Inductive uncaught :=
| Any (v : value W) | Debug (v : value W) | Display (v : value W) | Error (v : value W)
| StaticAny (v : value W) | StaticDebug (v : value W) | StaticDisplay (v : value W) | StaticError (v : value W).

(** [write!] with a piece before, an argument and a piece behind (Rust
    semantics); empty pieces are not written. As used at
    lib/osi/src/error.rs:39-74. *)
Definition lit (s : string) : formatting W := fun w => put w s.
(** [write!] with several pieces, as used at lib/osi/src/error.rs:40-74. *)
Definition then_ (f g : formatting W) : formatting W :=
  fun w => let (w, ok) := f w in if ok then g w else (w, false).

(** lib/osi/src/error.rs 33-58, [Debug::fmt]; [std] is the feature. *)
Definition debug_fmt (std : bool) (u : uncaught) : formatting W :=
  match u with
  | Any _ => lit "Uncaught::Any()"
  | Debug v => then_ (lit "Uncaught::Debug(") (then_ (debug v) (lit ")"))
  | Display v => then_ (lit "Uncaught::Display(") (then_ (display v) (lit ")"))
  | Error v => then_ (lit "Uncaught::Error(") (then_ (if std then debug v else display v) (lit ")"))
  | StaticAny _ => lit "Uncaught::StaticAny()"
  | StaticDebug v => then_ (lit "Uncaught::StaticDebug(") (then_ (debug v) (lit ")"))
  | StaticDisplay v => then_ (lit "Uncaught::StaticDisplay(") (then_ (display v) (lit ")"))
  | StaticError v => then_ (lit "Uncaught::StaticError(") (then_ (if std then debug v else display v) (lit ")"))
  end.

(** lib/osi/src/error.rs 60-77, [Display::fmt]. *)
Definition display_fmt (u : uncaught) : formatting W :=
  match u with
  | Any _ => lit "Uncaught(Any)"
  | Debug v => then_ (lit "Uncaught(Debug): ") (debug v)
  | Display v => then_ (lit "Uncaught(Display): ") (display v)
  | Error v => then_ (lit "Uncaught(Error): ") (display v)
  | StaticAny _ => lit "Uncaught(StaticAny)"
  | StaticDebug v => then_ (lit "Uncaught(StaticDebug): ") (debug v)
  | StaticDisplay v => then_ (lit "Uncaught(StaticDisplay): ") (display v)
  | StaticError v => then_ (lit "Uncaught(StaticError): ") (display v)
  end.

(** lib/osi/src/error.rs 79-93, [source]. *)
Definition source (u : uncaught) : option nat :=
  match u with
  | Any _ | Debug _ | Display _ => None
  | Error v => cause v
  | StaticAny _ | StaticDebug _ | StaticDisplay _ => None
  | StaticError v => cause v
  end.

(** lib/osi/src/error.rs 98-213, the constructors. *)
Definition uncaught_of (w : wrap) (v : value W) : uncaught :=
  match w with
  | FoldAny => Any v
  | FoldStaticAny => StaticAny v
  | BoxAny => Any v
  | FoldDebug => Debug v
  | FoldStaticDebug => StaticDebug v
  | BoxDebug => Debug v
  | FoldDisplay => Display v
  | FoldStaticDisplay => StaticDisplay v
  | BoxDisplay => Display v
  | FoldError => Error v
  | FoldStaticError => StaticError v
  | BoxError => Error v
  end.
End Uncaught.

(* ------------------------------------------------------------------ *)
(** ** Write *)

Section Bridge.
Context {D : Type} (write : D -> list N -> D * outcome).

(** [std::io::Write::write_all], provided by the standard library: offer what
    is left until nothing is; interruptions are ignored, no progress is an
    error. The flag tells success. Called at lib/osi/src/compat.rs:26. *)
Fixpoint write_all (fuel : nat) (d : D) (buf : list N) : res (D * bool) :=
  match buf with
  | [] => Ok (d, true)
  | _ =>
    match fuel with
    | 0 => NoFuel
    | S fuel =>
      match write d buf with
      | (d, Wrote 0) => Ok (d, false)
      | (d, Wrote n) => write_all fuel d (skipn n buf)
      | (d, Interrupted) => write_all fuel d buf
      | (d, Failed) => Ok (d, false)
      end
    end
  end.

(** What formatting arguments amounts to: pieces of text, possibly ended by
    the formatting function of an argument that fails on its own. The
    [Arguments] of lib/osi/src/compat.rs:21. *)
Inductive piece := Text (s : list N) | Broken.

(** [std::io::Write::write_fmt], provided by the standard library: each piece
    goes through [write_all]; the error of the device is kept. If formatting
    fails and the device did not, it panics. Called at
    lib/osi/src/compat.rs:22. *)
Fixpoint io_write_fmt (fuel : nat) (d : D) (args : list piece) : res (D * bool) :=
  match args with
  | [] => Ok (d, true)
  | Broken :: _ => Panic
  | Text s :: args =>
      match write_all fuel d s with
      | Ok (d, true) => io_write_fmt fuel d args
      | r => r
      end
  end.

(** lib/osi/src/compat.rs:25-27, [write_str]. *)
Definition write_str (fuel : nat) (d : D) (s : list N) : res (D * bool) := write_all fuel d s.
(** lib/osi/src/compat.rs:21-23, [write_fmt]. *)
Definition write_fmt (fuel : nat) (d : D) (args : list piece) : res (D * bool) := io_write_fmt fuel d args.
End Bridge.

(* ------------------------------------------------------------------ *)
(** ** OsStr *)

(** lib/osi/src/compat.rs:33-37: the encoded bytes. *)
Definition osstr := list N.

(** lib/osi/src/compat.rs:48-54. *)
Definition from_encoded_bytes_unchecked (v : list N) : osstr := v.
(** lib/osi/src/compat.rs:59-67; a [std::ffi::OsStr] is its encoded bytes. *)
Definition from_osstr (v : list N) : osstr := from_encoded_bytes_unchecked v.
(** lib/osi/src/compat.rs:71-75; a [str] is its bytes. *)
Definition from_str (v : list N) : osstr := from_encoded_bytes_unchecked v.
(** lib/osi/src/compat.rs:79-81. *)
Definition from_utf8 (v : list N) : option osstr := if DvarModel.utf8_valid v then Some (from_str v) else None.

(** lib/osi/src/compat.rs:85-87. *)
Definition as_encoded_bytes (o : osstr) : list N := o.
(** lib/osi/src/compat.rs:92-100. *)
Definition as_osstr (o : osstr) : list N := as_encoded_bytes o.
(** lib/osi/src/compat.rs:105-107. *)
Definition to_str (o : osstr) : option (list N) :=
  if DvarModel.utf8_valid (as_encoded_bytes o) then Some (as_encoded_bytes o) else None.

(* ------------------------------------------------------------------ *)
(** ** Alignment markers *)

(** A host: the alignment of numbers by class and size, the size and alignment
    of addresses. Rust semantics, not code in /repo. What
    lib/osi/src/align.rs:138-187 depends on. *)
Record host := { number_align : class -> nat -> nat; address : nat; address_align : nat }.

(** lib/osi/src/align.rs 43-95, [Align1] to [Align128], and 154-161, which of them is [AlignAs<BYTES>]. *)
Definition align_n (n : nat) : option ty :=
  match n with
  | 1 => Some (Struct false 1 [])
  | 2 => Some (Struct false 2 [])
  | 4 => Some (Struct false 4 [])
  | 8 => Some (Struct false 8 [])
  | 16 => Some (Struct false 16 [])
  | 32 => Some (Struct false 32 [])
  | 64 => Some (Struct false 64 [])
  | 128 => Some (Struct false 128 [])
  | _ => None
  end.

(** lib/osi/src/align.rs 119-123, [AlignAs]: transparent. *)
Definition align_as (n : nat) : option ty := option_map Transparent (align_n n).

(** The layout of a type (Rust semantics); a slice has the alignment of its
    elements. The types named at lib/osi/src/align.rs:163-187. *)
Fixpoint layout (h : host) (t : aligned) : option ty :=
  match t with
  | Number c n => Some (Prim n (number_align h c n))
  | Size => Some (Prim (address h) (number_align h Integer (address h)))
  | Unit => Some (Prim 0 1)
  | Str => Some (Array 0 (Prim 1 (number_align h Integer 1)))
  | ArrayOf n t => option_map (Array n) (layout h t)
  | SliceOf t => option_map (Array 0) (layout h t)
  | Reference | RawPointer => Some (Prim (address h) (address_align h))
  | As n => align_as n
  end.

(** lib/osi/src/align.rs:154-187, [Aligned::Align]; [None] if that type does
    not exist. *)
Fixpoint align_type (h : host) (t : aligned) : option ty :=
  match t with
  | Number c n => align_as (number_align h c n)
  | Size => align_as (number_align h Integer (address h))
  | Unit => align_as 1
  | Str => align_as (number_align h Integer 1)
  | ArrayOf _ t => align_type h t
  | SliceOf t => align_type h t
  | Reference | RawPointer => option_map Transparent (align_as (number_align h Integer (address h)))
  | As n => align_n n
  end.
(** lib/osi/src/align.rs:126-130, [AlignOf]: transparent. *)
Definition align_of_type (h : host) (t : aligned) : option ty := option_map Transparent (align_type h t).

(** lib/osi/src/align.rs:138 [AlignAny]. *)
Definition align_any : option ty := align_n 1.
(** lib/osi/src/align.rs:146 [AlignNative]. *)
Definition align_native (h : host) : option ty := align_of_type h Size.

(** lib/osi/src/align.rs 149-152: the program does not compile otherwise. *)
Definition compiles (h : host) : bool :=
  match align_native h with
  | Some m => ((LayModel.align_of m =? number_align h Integer (address h)) &&
               (number_align h Integer (address h) =? address_align h))%nat
  | None => false
  end.
