(** Specification of JSON documents as sequences of tokens (RFC 8259, sections
    2 to 5), and of nesting. *)
From Verif Require Import Base TokSyntax.

(** ** JSON documents *)

Inductive scalar : Token -> Prop :=
| sc_null : scalar TNull
| sc_false : scalar TFalse
| sc_true : scalar TTrue
| sc_number n : scalar (TNumber n)
| sc_string raw s : scalar (TString raw s).
Inductive value : list Token -> Prop :=
| v_scalar t : scalar t -> value [t]
| v_array_empty : value [TArrayOpen; TArrayClose]
| v_array vs : elements vs -> value (TArrayOpen :: vs ++ [TArrayClose])
| v_object_empty : value [TObjectOpen; TObjectClose]
| v_object ms : members ms -> value (TObjectOpen :: ms ++ [TObjectClose])
with elements : list Token -> Prop :=
| e_one v : value v -> elements v
| e_more v vs : value v -> elements vs -> elements (v ++ TComma :: vs)
with members : list Token -> Prop :=
| m_one raw k v : value v -> members (TString raw k :: TColon :: v)
| m_more raw k v ms : value v -> members ms -> members (TString raw k :: TColon :: v ++ TComma :: ms).
(** White space is allowed anywhere between tokens. *)
Definition is_ws (t : Token) : bool := match t with TWhitespace _ => true | _ => false end.
Definition strip (ts : list Token) : list Token := filter (fun t => negb (is_ws t)) ts.
Definition document (ts : list Token) : Prop := value (strip ts).

(** ** The documents without scalar values and empty objects *)

(** Every scalar is a string before a colon. *)
Definition keys_only (ts : list Token) : Prop :=
  forall before t after, ts = before ++ t :: after -> scalar t ->
  exists raw s after', t = TString raw s /\ after = TColon :: after'.
Definition no_empty_object (ts : list Token) : Prop :=
  forall before after, ts <> before ++ TObjectOpen :: TObjectClose :: after.

(** ** What the code accepts instead *)

(** Wherever a value is expected, any number of scalars may stand before an
    array or object; none of them takes the place of the value.  In an array,
    they may stand alone. *)
Inductive container : list Token -> Prop :=
| c_array_none ss : Forall scalar ss -> container (TArrayOpen :: ss ++ [TArrayClose])
| c_array vs : items vs -> container (TArrayOpen :: vs ++ [TArrayClose])
| c_object ms : pairs ms -> container (TObjectOpen :: ms ++ [TObjectClose])
with items : list Token -> Prop :=
| i_one ss v : Forall scalar ss -> container v -> items (ss ++ v)
| i_more ss v vs : Forall scalar ss -> container v -> items vs -> items (ss ++ v ++ TComma :: vs)
with pairs : list Token -> Prop :=
| p_one raw k ss v : Forall scalar ss -> container v -> pairs (TString raw k :: TColon :: ss ++ v)
| p_more raw k ss v ms : Forall scalar ss -> container v -> pairs ms ->
    pairs (TString raw k :: TColon :: ss ++ v ++ TComma :: ms).
Inductive code_document : list Token -> Prop :=
| cd ss v : Forall scalar ss -> container v -> code_document (ss ++ v).

(** ** Nesting *)

Inductive kind := Arr | Obj.
(** [nested opens closes]: reading items from the left, with the open arrays and
    objects on a stack, every closing one is of the kind opened last. *)
Inductive mark := Opens (k : kind) | Closes (k : kind).
Inductive nested : list kind -> list mark -> Prop :=
| n_end st : nested st []
| n_open k st ms : nested (k :: st) ms -> nested st (Opens k :: ms)
| n_close k st ms : nested st ms -> nested (k :: st) (Closes k :: ms).
