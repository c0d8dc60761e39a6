(** Specification vocabulary for D-Bus signatures: types, their text, open
    containers, occurrences of types inside types, and what D-Bus says about
    alignment and size.  Independent of the model. *)
From Coq Require Import Ascii.
From Verif Require Import Base.
Local Open Scope N_scope.
Local Open Scope char_scope.

Inductive basic :=
| BByte | BUint16 | BInt16 | BUint32 | BInt32 | BUint64 | BInt64 | BDouble | BBoolean
| BString | BObjectPath | BSignature | BHandle.

(** Single complete types. *)
Inductive ty :=
| TBasic (b : basic)
| TVariant
| TArray (t : ty)
| TMaybe (t : ty)
| TStruct (members : list ty)
| TDict (key : basic) (value : ty).

Definition chr (c : ascii) : N := N_of_ascii c.

Definition basic_chr (b : basic) : N :=
  chr match b with
      | BByte => "y" | BUint16 => "q" | BInt16 => "n" | BUint32 => "u" | BInt32 => "i"
      | BUint64 => "t" | BInt64 => "x" | BDouble => "d" | BBoolean => "b"
      | BString => "s" | BObjectPath => "o" | BSignature => "g" | BHandle => "h"
      end.

(** The text of a type. *)
Fixpoint print (t : ty) : list N :=
  match t with
  | TBasic b => [basic_chr b]
  | TVariant => [chr "v"]
  | TArray t => chr "a" :: print t
  | TMaybe t => chr "m" :: print t
  | TStruct ms => chr "(" :: flat_map print ms ++ [chr ")"]
  | TDict k v => chr "{" :: basic_chr k :: print v ++ [chr "}"]
  end.

(** The characters a signature may contain. *)
Definition codes : list N :=
  map chr ["y"; "q"; "n"; "u"; "i"; "t"; "x"; "d"; "b"; "s"; "o"; "g"; "h"; "v"; "a"; "m";
           "("; ")"; "{"; "}"].

(** A container that has been opened but not completed, with the complete types
    read in it so far.  An array or maybe completes with its first type. *)
Inductive frame :=
| FArray
| FMaybe
| FStruct (members : list ty)
| FDict (members : list ty).

Definition members (f : frame) : list ty :=
  match f with FStruct ms | FDict ms => ms | _ => [] end.
Definition opening (f : frame) : N :=
  chr match f with FArray => "a" | FMaybe => "m" | FStruct _ => "(" | FDict _ => "{" end.
(** The text of nested open containers, innermost first in the list: a proper
    prefix of the text of a type. *)
Fixpoint prefix (fs : list frame) : list N :=
  match fs with
  | [] => []
  | f :: fs => prefix fs ++ opening f :: flat_map print (members f)
  end.
Definition size {A} (l : list A) : N := N.of_nat (length l).

(** [occurs t fs u]: the type [u] occurs in [t], directly inside the open
    containers [fs].  It starts at index [size (prefix fs)] of the text. *)
Inductive occurs (t : ty) : list frame -> ty -> Prop :=
| occ_root : occurs t [] t
| occ_array fs u : occurs t fs (TArray u) -> occurs t (FArray :: fs) u
| occ_maybe fs u : occurs t fs (TMaybe u) -> occurs t (FMaybe :: fs) u
| occ_struct fs ms u ms' :
    occurs t fs (TStruct (ms ++ u :: ms')) -> occurs t (FStruct ms :: fs) u
| occ_key fs k v : occurs t fs (TDict k v) -> occurs t (FDict [] :: fs) (TBasic k)
| occ_value fs k v : occurs t fs (TDict k v) -> occurs t (FDict [TBasic k] :: fs) v.

(** Closing characters and what they close. *)
Definition closes (c : N) (f : frame) : Prop :=
  match f with
  | FStruct _ => c = chr ")"
  | FDict _ => c = chr "}"
  | _ => False
  end.
Definition is_closing (c : N) : Prop := c = chr ")" \/ c = chr "}".

(** Alignment exponents of the classic D-Bus encoding (D-Bus specification,
    "Summary of D-Bus marshalling"), with maybe (not part of D-Bus) as 4. *)
Definition basic_dvar_align (b : basic) : N :=
  match b with
  | BByte | BSignature => 0
  | BUint16 | BInt16 => 1
  | BUint32 | BInt32 | BBoolean | BString | BObjectPath | BHandle => 2
  | BUint64 | BInt64 | BDouble => 3
  end.
Definition dvar_align (t : ty) : N :=
  match t with
  | TBasic b => basic_dvar_align b
  | TVariant => 0
  | TArray _ | TMaybe _ => 2
  | TStruct _ | TDict _ _ => 3
  end.

(** Alignment exponents of GVariant: containers have the largest alignment of
    their members, strings and booleans 1, variants 8. *)
Definition basic_gvar_align (b : basic) : N :=
  match b with
  | BByte | BBoolean | BString | BObjectPath | BSignature => 0
  | BUint16 | BInt16 => 1
  | BUint32 | BInt32 | BHandle => 2
  | BUint64 | BInt64 | BDouble => 3
  end.
Fixpoint gvar_align (t : ty) : N :=
  match t with
  | TBasic b => basic_gvar_align b
  | TVariant => 3
  | TArray t | TMaybe t => gvar_align t
  | TStruct ms => fold_left (fun a m => N.max a (gvar_align m)) ms 0
  | TDict k v => N.max (basic_gvar_align k) (gvar_align v)
  end.

(** The least multiple of [m] that is at least [n]. *)
Definition pad_to (m n : N) : N := (n + m - 1) / m * m.

(** Types whose encoding has a fixed size, and that size when encoded at an
    offset aligned to 8. *)
Definition basic_dynamic (b : basic) : bool :=
  match b with BString | BObjectPath | BSignature => true | _ => false end.
Fixpoint dynamic (t : ty) : bool :=
  match t with
  | TBasic b => basic_dynamic b
  | TVariant | TArray _ | TMaybe _ => true
  | TStruct ms => existsb dynamic ms
  | TDict k v => basic_dynamic k || dynamic v
  end.
Definition basic_dvar_size (b : basic) : N :=
  match b with
  | BByte => 1 | BUint16 | BInt16 => 2
  | BUint32 | BInt32 | BBoolean | BHandle => 4
  | BUint64 | BInt64 | BDouble => 8
  | BString | BObjectPath | BSignature => 0
  end.
Fixpoint dvar_size (t : ty) : N :=
  match t with
  | TBasic b => basic_dvar_size b
  | TVariant | TArray _ | TMaybe _ => 0
  | TStruct ms => fold_left (fun n m => pad_to (2 ^ dvar_align m) n + dvar_size m) ms 0
  | TDict k v => pad_to (2 ^ dvar_align v) (basic_dvar_size k) + dvar_size v
  end.
Definition basic_gvar_size (b : basic) : N :=
  match b with BBoolean => 1 | _ => basic_dvar_size b end.
(** The end of the last member: without the padding at the end that GVariant
    adds to reach a multiple of the alignment. *)
Fixpoint gvar_end (t : ty) : N :=
  match t with
  | TBasic b => basic_gvar_size b
  | TVariant | TArray _ | TMaybe _ => 0
  | TStruct ms => fold_left (fun n m => pad_to (2 ^ gvar_align m) n + gvar_end m) ms 0
  | TDict k v => pad_to (2 ^ gvar_align v) (basic_gvar_size k) + gvar_end v
  end.
(** GVariant's fixed size: with that padding (an empty struct takes one byte). *)
Fixpoint gvar_size (t : ty) : N :=
  match t with
  | TBasic b => basic_gvar_size b
  | TVariant | TArray _ | TMaybe _ => 0
  | TStruct [] => 1
  | TStruct ms =>
    pad_to (2 ^ fold_left (fun a m => N.max a (gvar_align m)) ms 0)
           (fold_left (fun n m => pad_to (2 ^ gvar_align m) n + gvar_size m) ms 0)
  | TDict k v =>
    pad_to (2 ^ N.max (basic_gvar_align k) (gvar_align v))
           (pad_to (2 ^ gvar_align v) (basic_gvar_size k) + gvar_size v)
  end.

(** Positions in a signature. [index fs] is where a type directly inside the
    open containers [fs] starts; [container fs] where the innermost of them
    starts. *)
Definition index (fs : list frame) : N := size (prefix fs).
Definition container (fs : list frame) : option N :=
  match fs with [] => None | _ :: fs => Some (index fs) end.
Definition siblings_before (fs : list frame) : N :=
  match fs with [] => 0 | f :: _ => size (members f) end.
(** Whether a type can be followed by a sibling, counting the end of the
    signature and of the container as such. *)
Definition stepping (fs : list frame) : bool :=
  match fs with FArray :: _ | FMaybe :: _ => false | _ => true end.
Definition opens (t : ty) : bool :=
  match t with TBasic _ | TVariant => false | _ => true end.
(** Structs and dict entries end with a closing character. *)
Definition inner (t : ty) : option (list ty) :=
  match t with TStruct ms => Some ms | TDict k v => Some [TBasic k; v] | _ => None end.

(** [contains t P]: [t] is or contains a type that satisfies [P]. *)
Definition contains (t : ty) (P : ty -> Prop) : Prop := exists fs u, occurs t fs u /\ P u.

(** Lexicographic order of texts. *)
Inductive text_lt : list N -> list N -> Prop :=
| lt_nil b s : text_lt [] (b :: s)
| lt_head a s b s' : a < b -> text_lt (a :: s) (b :: s')
| lt_tail a s s' : text_lt s s' -> text_lt (a :: s) (a :: s').

(** Types that make a type they occur in dynamically sized. *)
Definition dynamic_one (t : ty) : Prop :=
  match t with
  | TBasic b => b = BString \/ b = BObjectPath \/ b = BSignature
  | TVariant | TArray _ | TMaybe _ => True
  | _ => False
  end.
