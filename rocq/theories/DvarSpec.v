(** Specification of the classic D-Bus wire format for the types the encoder
    has methods for, and of the calls that describe a value. *)
From Coq Require Import Ascii.
From Verif Require Import Base DbusSpec DvarModel.
Local Open Scope N_scope.

Inductive value :=
| VU16 (n : N) | VU32 (n : N) | VU64 (n : N)
| VString (s : list N) | VObject (s : list N) | VSignature (s : list N)
| VVariant (t : ty) (v : value)
| VArray (vs : list value)
| VStruct (vs : list value)
| VDict (k v : value).

(** The byte order each format is named for. *)
Definition big_endian (f : Format) : bool := match f with DVarBe => true | DVarLe => false end.
(** The [n] bytes of an integer, in big or little endian. *)
Definition int (big : bool) (n : nat) (v : N) : list N :=
  let little := map (fun i => v / 256 ^ N.of_nat i mod 256) (seq 0 n) in
  if big then rev little else little.
(** Zeros up to the next multiple of [2 ^ exp]. *)
Definition padding (pos exp : N) : list N := repeat 0 (N.to_nat (pad_to (2 ^ exp) pos - pos)).

Definition counted (big : bool) (n : nat) (s : list N) : list N := int big n (size s) ++ s ++ [0].

(** [marshal big t v pos]: the bytes of the value [v] of type [t] starting at
    the offset [pos] of a message.  None if it is not such a value or a length
    does not fit. *)
Fixpoint marshal (big : bool) (t : ty) (v : value) (pos : N) {struct v} : option (list N) :=
  let struct := fix struct (ts : list ty) (vs : list value) (pos : N) {struct vs} :=
    match ts, vs with
    | [], [] => Some []
    | t :: ts, v :: vs =>
      match marshal big t v pos with
      | Some b => match struct ts vs (pos + size b) with Some b' => Some (b ++ b') | None => None end
      | None => None
      end
    | _, _ => None
    end in
  let array t := fix array (vs : list value) (pos : N) {struct vs} :=
    match vs with
    | [] => Some []
    | v :: vs =>
      match marshal big t v pos with
      | Some b => match array vs (pos + size b) with Some b' => Some (b ++ b') | None => None end
      | None => None
      end
    end in
  match t, v with
  | TBasic BUint16, VU16 n => if n <? 2 ^ 16 then Some (padding pos 1 ++ int big 2 n) else None
  | TBasic BUint32, VU32 n => if n <? 2 ^ 32 then Some (padding pos 2 ++ int big 4 n) else None
  | TBasic BUint64, VU64 n => if n <? 2 ^ 64 then Some (padding pos 3 ++ int big 8 n) else None
  | TBasic BString, VString s => if size s <? 2 ^ 32 then Some (padding pos 2 ++ counted big 4 s) else None
  | TBasic BObjectPath, VObject s => if size s <? 2 ^ 32 then Some (padding pos 2 ++ counted big 4 s) else None
  | TBasic BSignature, VSignature s => if size s <? 2 ^ 8 then Some (counted big 1 s) else None
  | TVariant, VVariant u v =>
    if size (print u) <? 2 ^ 8 then
      let head := counted big 1 (print u) in
      match marshal big u v (pos + size head) with Some b => Some (head ++ b) | None => None end
    else None
  | TArray u, VArray vs =>
    let start := pos + size (padding pos 2) + 4 in
    let gap := padding start (dvar_align u) in
    match array u vs (start + size gap) with
    | Some b => if size b <? 2 ^ 32 then Some (padding pos 2 ++ int big 4 (size b) ++ gap ++ b) else None
    | None => None
    end
  | TStruct ts, VStruct vs =>
    match struct ts vs (pos + size (padding pos 3)) with Some b => Some (padding pos 3 ++ b) | None => None end
  | TDict kb u, VDict k v =>
    match struct [TBasic kb; u] [k; v] (pos + size (padding pos 3)) with Some b => Some (padding pos 3 ++ b) | None => None end
  | _, _ => None
  end.

(** Types of contained variants have at most [n] elements. *)
Fixpoint variants_up_to (n : N) (v : value) : Prop :=
  match v with
  | VVariant t v => size (print t) <= n /\ variants_up_to n v
  | VArray vs | VStruct vs => (fix all vs := match vs with [] => True | v :: vs => variants_up_to n v /\ all vs end) vs
  | VDict k v => variants_up_to n k /\ variants_up_to n v
  | _ => True
  end.

(** The calls that describe a value of a type; at any point a sub-encoder may
    be used for the next type. *)
Inductive encodes : ty -> value -> list call -> Prop :=
| enc_as_u16 n : encodes (TBasic BUint16) (VU16 n) [CU16 n]
| enc_as_u32 n : encodes (TBasic BUint32) (VU32 n) [CU32 n]
| enc_as_u64 n : encodes (TBasic BUint64) (VU64 n) [CU64 n]
| enc_as_string s : encodes (TBasic BString) (VString s) [CString s]
| enc_as_object s : encodes (TBasic BObjectPath) (VObject s) [CObject s]
| enc_as_signature s : encodes (TBasic BSignature) (VSignature s) [CSignature s]
| enc_as_variant t v cs : encodes t v cs -> encodes TVariant (VVariant t v) (CVariant (print t) :: cs ++ [CClose])
| enc_as_array t vs cs :
    encodes_all (repeat t (length vs)) vs cs -> encodes (TArray t) (VArray vs) (CArray :: cs ++ [CClose])
| enc_as_struct ts vs cs : encodes_all ts vs cs -> encodes (TStruct ts) (VStruct vs) (CStructure :: cs ++ [CClose])
| enc_as_dict k t kv v cs :
    encodes_all [TBasic k; t] [kv; v] cs -> encodes (TDict k t) (VDict kv v) (CDict :: cs ++ [CClose])
| enc_as_sub t v cs : encodes t v cs -> encodes t v (CEnc :: cs ++ [CCommit; CDrop])
| enc_as_sub_with t v cs : encodes t v cs -> encodes t v (CEncWith (print t) :: cs ++ [CCommit; CDrop])
with encodes_all : list ty -> list value -> list call -> Prop :=
| enc_as_nil : encodes_all [] [] []
| enc_as_cons t ts v vs cs cs' :
    encodes t v cs -> encodes_all ts vs cs' -> encodes_all (t :: ts) (v :: vs) (cs ++ cs').

(** The calls for a value, without sub-encoders. *)
Fixpoint describe (v : value) : list call :=
  match v with
  | VU16 n => [CU16 n] | VU32 n => [CU32 n] | VU64 n => [CU64 n]
  | VString s => [CString s] | VObject s => [CObject s] | VSignature s => [CSignature s]
  | VVariant t v => CVariant (print t) :: describe v ++ [CClose]
  | VArray vs => CArray :: flat_map describe vs ++ [CClose]
  | VStruct vs => CStructure :: flat_map describe vs ++ [CClose]
  | VDict k v => CDict :: (describe k ++ describe v) ++ [CClose]
  end.
