(** Model of lib/tmp/src/fmt/json/stream.rs: the JSON document decoder. *)
From Verif Require Import Base StreamSpec StreamModel TokSyntax.
From Verif Require TokModel.
Local Open Scope res_scope.

(** stream.rs:36-45 [Item].  The only error ever made is [Error::Foobar]. *)
Inductive Item := IError | IPrim | IKey | IArrayOpen | IArrayClose | IObjectOpen | IObjectClose.
(** stream.rs:47-60 [State]. *)
Inductive State :=
| Root | RootDone | ArrayOpen | ArrayValue | ArrayComma
| ObjectOpen | ObjectKey | ObjectColon | ObjectValue | ObjectComma.
(** stream.rs:62-67 [Stack]. *)
Inductive Stack := Array | Object.
(** stream.rs:69-72 [DecInner]; the top of the stack is the head of the list. *)
Record inner := mkInner { state : State; stack : list Stack }.
(** stream.rs:80-85 [new]. *)
Definition new : inner := mkInner Root [].

(** The assignments `self.state = ..` in stream.rs:137-284. *)
Definition set_state (d : inner) (s : State) : inner := mkInner s (stack d).
(** stream.rs:87-89 [unexpected]. *)
Definition unexpected (d : inner) : inner * option Item := (d, Some IError).
(** stream.rs:91-93 [propagate]. *)
Definition propagate (d : inner) (e : Error) : inner * option Item := (d, Some IError).
(** stream.rs:95-101 [value]. *)
Definition value (d : inner) (t : Token) : inner * option Item := (d, Some IPrim).
(** stream.rs:104-106, 121-123: remembering the container. *)
Definition push (d : inner) (from : option Stack) : list Stack :=
  match from with Some v => v :: stack d | None => stack d end.
(** stream.rs:103-109 [array_open]. *)
Definition array_open (d : inner) (from : option Stack) : inner * option Item :=
  (mkInner ArrayOpen (push d from), Some IArrayOpen).
(** stream.rs:120-126 [object_open]. *)
Definition object_open (d : inner) (from : option Stack) : inner * option Item :=
  (mkInner ObjectOpen (push d from), Some IObjectOpen).
(** stream.rs:111-118 [array_close]. *)
Definition array_close (d : inner) : inner * option Item :=
  (match stack d with
   | [] => mkInner RootDone []
   | Array :: s => mkInner ArrayValue s
   | Object :: s => mkInner ObjectValue s
   end, Some IArrayClose).
(** stream.rs:128-135 [object_close]. *)
Definition object_close (d : inner) : inner * option Item :=
  (match stack d with
   | [] => mkInner RootDone []
   | Array :: s => mkInner ArrayValue s
   | Object :: s => mkInner ObjectValue s
   end, Some IObjectClose).

(** stream.rs:137-284 [advance].  It never returns [More]. *)
Definition advance (d : inner) (token : Token) : inner * option Item :=
  match state d, token with
  | Root, TError e => propagate d e
  | Root, TWhitespace _ => (d, None)
  | Root, TColon => unexpected d
  | Root, TComma => unexpected d
  | Root, TArrayOpen => array_open d None
  | Root, TArrayClose => unexpected d
  | Root, TObjectOpen => object_open d None
  | Root, TObjectClose => unexpected d
  | Root, TNull => value d token
  | Root, TFalse => value d token
  | Root, TTrue => value d token
  | Root, TNumber _ => value d token
  | Root, TString _ _ => value d token

  | ArrayOpen, TError e => propagate d e
  | ArrayOpen, TWhitespace _ => (d, None)
  | ArrayOpen, TColon => unexpected d
  | ArrayOpen, TComma => unexpected d
  | ArrayOpen, TArrayOpen => array_open d (Some Array)
  | ArrayOpen, TArrayClose => array_close d
  | ArrayOpen, TObjectOpen => object_open d (Some Array)
  | ArrayOpen, TObjectClose => unexpected d
  | ArrayOpen, TNull => value d token
  | ArrayOpen, TFalse => value d token
  | ArrayOpen, TTrue => value d token
  | ArrayOpen, TNumber _ => value d token
  | ArrayOpen, TString _ _ => value d token

  | ArrayValue, TError e => propagate d e
  | ArrayValue, TWhitespace _ => (d, None)
  | ArrayValue, TColon => unexpected d
  | ArrayValue, TComma => (set_state d ArrayComma, None)
  | ArrayValue, TArrayOpen => unexpected d
  | ArrayValue, TArrayClose => array_close d
  | ArrayValue, TObjectOpen => unexpected d
  | ArrayValue, TObjectClose => unexpected d
  | ArrayValue, TNull => unexpected d
  | ArrayValue, TFalse => unexpected d
  | ArrayValue, TTrue => unexpected d
  | ArrayValue, TNumber _ => unexpected d
  | ArrayValue, TString _ _ => unexpected d

  | ArrayComma, TError e => propagate d e
  | ArrayComma, TWhitespace _ => (d, None)
  | ArrayComma, TColon => unexpected d
  | ArrayComma, TComma => unexpected d
  | ArrayComma, TArrayOpen => array_open d (Some Array)
  | ArrayComma, TArrayClose => unexpected d
  | ArrayComma, TObjectOpen => object_open d (Some Array)
  | ArrayComma, TObjectClose => unexpected d
  | ArrayComma, TNull => value d token
  | ArrayComma, TFalse => value d token
  | ArrayComma, TTrue => value d token
  | ArrayComma, TNumber _ => value d token
  | ArrayComma, TString _ _ => value d token

  | ObjectOpen, TError e => propagate d e
  | ObjectOpen, TWhitespace _ => (d, None)
  | ObjectOpen, TColon => unexpected d
  | ObjectOpen, TComma => unexpected d
  | ObjectOpen, TArrayOpen => unexpected d
  | ObjectOpen, TArrayClose => unexpected d
  | ObjectOpen, TObjectOpen => unexpected d
  | ObjectOpen, TObjectClose => unexpected d
  | ObjectOpen, TNull => unexpected d
  | ObjectOpen, TFalse => unexpected d
  | ObjectOpen, TTrue => unexpected d
  | ObjectOpen, TNumber _ => unexpected d
  | ObjectOpen, TString _ _ => value (set_state d ObjectKey) token

  | ObjectKey, TError e => propagate d e
  | ObjectKey, TWhitespace _ => (d, None)
  | ObjectKey, TColon => (set_state d ObjectColon, None)
  | ObjectKey, TComma => unexpected d
  | ObjectKey, TArrayOpen => unexpected d
  | ObjectKey, TArrayClose => unexpected d
  | ObjectKey, TObjectOpen => unexpected d
  | ObjectKey, TObjectClose => unexpected d
  | ObjectKey, TNull => unexpected d
  | ObjectKey, TFalse => unexpected d
  | ObjectKey, TTrue => unexpected d
  | ObjectKey, TNumber _ => unexpected d
  | ObjectKey, TString _ _ => unexpected d

  | ObjectColon, TError e => propagate d e
  | ObjectColon, TWhitespace _ => (d, None)
  | ObjectColon, TColon => unexpected d
  | ObjectColon, TComma => unexpected d
  | ObjectColon, TArrayOpen => array_open d (Some Object)
  | ObjectColon, TArrayClose => unexpected d
  | ObjectColon, TObjectOpen => object_open d (Some Object)
  | ObjectColon, TObjectClose => unexpected d
  | ObjectColon, TNull => value d token
  | ObjectColon, TFalse => value d token
  | ObjectColon, TTrue => value d token
  | ObjectColon, TNumber _ => value d token
  | ObjectColon, TString _ _ => value d token

  | ObjectValue, TError e => propagate d e
  | ObjectValue, TWhitespace _ => (d, None)
  | ObjectValue, TColon => unexpected d
  | ObjectValue, TComma => (set_state d ObjectComma, None)
  | ObjectValue, TArrayOpen => unexpected d
  | ObjectValue, TArrayClose => unexpected d
  | ObjectValue, TObjectOpen => unexpected d
  | ObjectValue, TObjectClose => object_close d
  | ObjectValue, TNull => unexpected d
  | ObjectValue, TFalse => unexpected d
  | ObjectValue, TTrue => unexpected d
  | ObjectValue, TNumber _ => unexpected d
  | ObjectValue, TString _ _ => unexpected d

  | ObjectComma, TError e => propagate d e
  | ObjectComma, TWhitespace _ => (d, None)
  | ObjectComma, TColon => unexpected d
  | ObjectComma, TComma => unexpected d
  | ObjectComma, TArrayOpen => unexpected d
  | ObjectComma, TArrayClose => unexpected d
  | ObjectComma, TObjectOpen => unexpected d
  | ObjectComma, TObjectClose => unexpected d
  | ObjectComma, TNull => unexpected d
  | ObjectComma, TFalse => unexpected d
  | ObjectComma, TTrue => unexpected d
  | ObjectComma, TNumber _ => unexpected d
  | ObjectComma, TString _ _ => value (set_state d ObjectKey) token

  | RootDone, TError e => propagate d e
  | RootDone, TWhitespace _ => (d, None)
  | RootDone, TColon => unexpected d
  | RootDone, TComma => unexpected d
  | RootDone, TArrayOpen => unexpected d
  | RootDone, TArrayClose => unexpected d
  | RootDone, TObjectOpen => unexpected d
  | RootDone, TObjectClose => unexpected d
  | RootDone, TNull => unexpected d
  | RootDone, TFalse => unexpected d
  | RootDone, TTrue => unexpected d
  | RootDone, TNumber _ => unexpected d
  | RootDone, TString _ _ => unexpected d
  end.
(** The items for a sequence of tokens. Repeated use of stream.rs:137-284. *)
Fixpoint feed (d : inner) (ts : list Token) : inner * list Item :=
  match ts with
  | [] => (d, [])
  | t :: ts =>
      let '(d, i) := advance d t in
      let '(d, is_) := feed d ts in
      (d, match i with Some i => i :: is_ | None => is_ end)
  end.

(** stream.rs:74-77 [Dec]; its reader is kept apart.  297-300 [advance_inner] and
    302-333 [advance], [pop]: tokens are read until there is an item. *)
Fixpoint pop_loop (fuel : nat) (v : view) (buf : list N) (t : TokModel.dec) (d : inner)
  : res (list N * TokModel.dec * inner * flow Item) :=
  match fuel with
  | O => NoFuel
  | S fuel =>
      do '(buf, t, r) <- TokModel.pop v buf t;
      match r with
      | Break m => Ok (buf, t, d, Break m)
      | Cont token =>
          let '(d, i) := advance d token in
          match i with
          | Some i => Ok (buf, t, d, Cont i)
          | None => pop_loop fuel v buf t d
          end
      end
  end.
(** stream.rs:331-333 [pop]; the fuel is enough for any buffer. *)
Definition pop (v : view) (buf : list N) (t : TokModel.dec) (d : inner) :=
  pop_loop (8 * length buf + 5) v buf t d.

(** ** Use of the decoder *)

(** As in TokModel.v: data arrives, or an item is asked for. Calls of
    stream.rs:331-333 and of the reader it uses (lib/tmp/src/io/stream.rs). *)
Fixpoint session (h : list TokModel.event) (buf : list N) (t : TokModel.dec) (d : inner)
  : res (list (flow Item) * list N * TokModel.dec * inner) :=
  match h with
  | [] => Ok ([], buf, t, d)
  | TokModel.Feed data :: h => session h (buf ++ data) t d
  | TokModel.Pop v :: h =>
      do '(buf, t, d, r) <- pop v buf t d;
      do '(rs, buf, t, d) <- session h buf t d;
      Ok (r :: rs, buf, t, d)
  end.
