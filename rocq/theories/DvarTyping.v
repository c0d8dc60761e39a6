(** What an encoder expects next: a specification of the well-typed call
    sequences, by a machine that knows only types. *)
From Verif Require Import Base DbusSpec DvarModel.
Local Open Scope N_scope.

(** A container being written: a sequence of members of which the given ones are
    missing, or an array of any number of elements. *)
Inductive hole := HSeq (missing : list ty) | HArr (element : ty).
(** The open containers of an encoder, innermost first, and the type expected
    next. *)
Definition next (h : list hole) : option ty :=
  match h with HSeq (t :: _) :: _ | HArr t :: _ => Some t | _ => None end.
Definition pop (h : list hole) : list hole :=
  match h with HSeq (_ :: ts) :: h => HSeq ts :: h | _ => h end.
(** An encoder and the encoders it borrows from, innermost first; with each
    whether it is a sub-encoder that has not been committed. *)
Definition state : Type := list (list hole * bool).

Inductive accepts : state -> call -> state -> Prop :=
| acc_u16 n h b up : next h = Some (TBasic BUint16) -> accepts ((h, b) :: up) (CU16 n) ((pop h, b) :: up)
| acc_u32 n h b up : next h = Some (TBasic BUint32) -> accepts ((h, b) :: up) (CU32 n) ((pop h, b) :: up)
| acc_u64 n h b up : next h = Some (TBasic BUint64) -> accepts ((h, b) :: up) (CU64 n) ((pop h, b) :: up)
| acc_string s h b up : next h = Some (TBasic BString) -> accepts ((h, b) :: up) (CString s) ((pop h, b) :: up)
| acc_object s h b up : next h = Some (TBasic BObjectPath) -> accepts ((h, b) :: up) (CObject s) ((pop h, b) :: up)
| acc_signature s h b up : next h = Some (TBasic BSignature) -> accepts ((h, b) :: up) (CSignature s) ((pop h, b) :: up)
| acc_variant t h b up : next h = Some TVariant -> accepts ((h, b) :: up) (CVariant (print t)) ((HSeq [t] :: pop h, b) :: up)
| acc_array t h b up : next h = Some (TArray t) -> accepts ((h, b) :: up) CArray ((HArr t :: pop h, b) :: up)
| acc_structure ts h b up : next h = Some (TStruct ts) -> accepts ((h, b) :: up) CStructure ((HSeq ts :: pop h, b) :: up)
| acc_dict k t h b up : next h = Some (TDict k t) -> accepts ((h, b) :: up) CDict ((HSeq [TBasic k; t] :: pop h, b) :: up)
| acc_close_seq h b up : h <> [] -> accepts ((HSeq [] :: h, b) :: up) CClose ((h, b) :: up)
| acc_close_arr t h b up : h <> [] -> accepts ((HArr t :: h, b) :: up) CClose ((h, b) :: up)
| acc_enc t h b up : next h = Some t -> accepts ((h, b) :: up) CEnc (([HSeq [t]], true) :: (h, b) :: up)
| acc_enc_with t h b up : next h = Some t -> accepts ((h, b) :: up) (CEncWith (print t)) (([HSeq [t]], true) :: (h, b) :: up)
| acc_commit_sub h b up : accepts (([HSeq []], true) :: (h, b) :: up) CCommit (([HSeq []], false) :: (pop h, b) :: up)
| acc_commit up : accepts (([HSeq []], false) :: up) CCommit (([HSeq []], false) :: up)
| acc_drop f g up : accepts (f :: g :: up) CDrop (g :: up)
| acc_drop_last f : accepts [f] CDrop [f].

(** The error for a call that is not accepted. *)
Definition mistake (c : call) : derror := match c with CCommit => Pending | _ => Mismatch end.
(** Signatures passed by the caller are signatures. *)
Definition valid_call (c : call) : Prop :=
  match c with
  | CVariant s | CEncWith s => exists t sg, s = print t /\ make_sig s = Ok sg
  | _ => True
  end.

(** Calls in sequence, continuing after errors, with what they returned. *)
Inductive history {W} (I : IoMapModel.Write W) : Enc W -> list (call * dflow) -> Enc W -> Prop :=
| his_nil e : history I e [] e
| his_cons e c r e1 l e2 :
    valid_call c -> enc_call I e c = Ok (r, e1) -> history I e1 l e2 -> history I e ((c, r) :: l) e2.
(** A history as the machine sees it: successful calls are accepted, rejected
    calls fail with the error for this, other failures do not move it. *)
Inductive follows : state -> list (call * dflow) -> state -> Prop :=
| fol_nil s : follows s [] s
| fol_done s c s1 l s2 : accepts s c s1 -> follows s1 l s2 -> follows s ((c, IoMapModel.Continue tt) :: l) s2
| fol_rejected s c l s2 : (forall s1, ~ accepts s c s1) -> follows s l s2 ->
    follows s ((c, IoMapModel.Break (Some (mistake c))) :: l) s2
| fol_failed s c s1 x l s2 : accepts s c s1 -> x <> Some Mismatch -> x <> Some Pending -> follows s l s2 ->
    follows s ((c, IoMapModel.Break x) :: l) s2.

(** Calls on one encoder only. *)
Definition plain_call (c : call) : Prop :=
  match c with CEnc | CEncWith _ | CCommit | CDrop => False | _ => True end.

(** The calls of a history that succeeded. *)
Fixpoint succeeded (l : list (call * dflow)) : list call :=
  match l with
  | [] => []
  | (c, IoMapModel.Continue _) :: l => c :: succeeded l
  | (_, IoMapModel.Break _) :: l => succeeded l
  end.
(** Integers passed by the caller are of the type of the parameter. *)
Definition call_fits (c : call) : Prop :=
  match c with
  | CU16 n => n < 2 ^ 16
  | CU32 n => n < 2 ^ 32
  | CU64 n => n < 2 ^ 64
  | _ => True
  end.

(** Calls on an encoder and the sub-encoders made from it, all of which are dropped
    in the end, while the encoder itself is neither committed nor dropped.  [d] is
    the number of sub-encoders in use at first. *)
Fixpoint inside (d : nat) (l : list call) : bool :=
  match l with
  | [] => Nat.eqb d 0
  | (CEnc | CEncWith _) :: l => inside (S d) l
  | CDrop :: l => match d with O => false | S d => inside d l end
  | CCommit :: l => match d with O => false | S _ => inside d l end
  | _ :: l => inside d l
  end.
(** The calls that count: not those on sub-encoders that are dropped without having
    been committed, and only the first commit. *)
Inductive counts : list call -> list call -> Prop :=
| counts_nil : counts [] []
| counts_call c l m : plain_call c -> counts l m -> counts (c :: l) (c :: m)
| counts_sub c l1 m1 k l2 m2 : c = CEnc \/ (exists s, c = CEncWith s) -> counts l1 m1 -> counts l2 m2 ->
    counts (c :: l1 ++ CCommit :: repeat CCommit k ++ CDrop :: l2) ((c :: m1 ++ [CCommit; CDrop]) ++ m2)
| counts_dropped c l1 m1 l2 m2 : c = CEnc \/ (exists s, c = CEncWith s) -> counts l1 m1 -> counts l2 m2 ->
    counts (c :: l1 ++ CDrop :: l2) m2.
