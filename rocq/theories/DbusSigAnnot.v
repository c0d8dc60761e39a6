(** Proof vocabulary for the signature parser: the nodes that belong to a type
    and to a stack of open containers, and the abstract stack machine that the
    parser refines. *)
From Verif Require Import Base DbusSigModel DbusSpec.
Local Open Scope N_scope.

Section TyInd.
  Context (P : ty -> Prop)
    (Hb : forall b, P (TBasic b)) (Hv : P TVariant)
    (Ha : forall t, P t -> P (TArray t)) (Hm : forall t, P t -> P (TMaybe t))
    (Hs : forall ms, Forall P ms -> P (TStruct ms))
    (Hd : forall k v, P v -> P (TDict k v)).
  Fixpoint ty_rect' (t : ty) : P t :=
    match t with
    | TBasic b => Hb b
    | TVariant => Hv
    | TArray t => Ha t (ty_rect' t)
    | TMaybe t => Hm t (ty_rect' t)
    | TStruct ms =>
      Hs ms ((fix go ms : Forall P ms :=
                match ms with
                | [] => Forall_nil _
                | m :: ms => Forall_cons m (ty_rect' m) (go ms)
                end) ms)
    | TDict k v => Hd k v (ty_rect' v)
    end.
End TyInd.

Definition len (t : ty) : N := size (print t).
Fixpoint lens (ms : list ty) : N :=
  match ms with [] => 0 | m :: ms => len m + lens ms end.

Definition basic_el (b : basic) : Element :=
  match b with
  | BByte => EU8 | BUint16 => EU16 | BInt16 => EI16 | BUint32 => EU32 | BInt32 => EI32
  | BUint64 => EU64 | BInt64 => EI64 | BDouble => EF64 | BBoolean => EBool
  | BString => EString | BObjectPath => EObject | BSignature => ESignature | BHandle => EHandle
  end.
Definition ty_el (t : ty) : Element :=
  match t with
  | TBasic b => basic_el b | TVariant => EVariant | TArray _ => EArray | TMaybe _ => EMaybe
  | TStruct _ => EStructOpen | TDict _ _ => EDictOpen
  end.
Definition is_basic (t : ty) : bool := match t with TBasic _ => true | _ => false end.
Definition is_container (t : ty) : bool :=
  match t with TBasic _ | TVariant => false | _ => true end.
Definition is_variant (t : ty) : bool := match t with TVariant => true | _ => false end.
Definition basic_han (b : basic) : bool := match b with BHandle => true | _ => false end.
Fixpoint r_han (t : ty) : bool :=
  match t with
  | TBasic b => basic_han b
  | TVariant => false
  | TArray t | TMaybe t => r_han t
  | TStruct ms => existsb r_han ms
  | TDict k v => basic_han k || r_han v
  end.
Fixpoint r_uns (t : ty) : bool :=
  match t with
  | TBasic _ | TVariant => false
  | TArray t => r_uns t
  | TMaybe _ => true
  | TStruct ms => existsb r_uns ms
  | TDict _ v => r_uns v
  end.
Fixpoint r_mis (t : ty) : bool :=
  match t with
  | TBasic _ => false
  | TVariant => true
  | TArray t | TMaybe t => (2 <? dvar_align t) || (r_mis t && (dvar_align t <? 3))
  | TStruct ms => existsb (fun m => r_mis m && (dvar_align m <? 3)) ms
  | TDict k v => r_mis v && (dvar_align v <? 3)
  end.
Definition pair_like (ms : list ty) : bool :=
  match ms with [m; _] => is_basic m | _ => false end.
Definition r_dict (t : ty) : bool :=
  match t with TStruct ms => pair_like ms | TDict _ _ => true | _ => false end.

Section Annot.
Context (nid : N).

(** The node of a complete type, before anything it is contained in sees it. *)
Definition root (t : ty) (off pos : N) : Node :=
  mkNode (Flags (ty_el t) nid (dvar_align t) (gvar_align t) true (is_container t) false
            (is_basic t) (dynamic t) (is_variant t) (r_han t) (r_dict t) (r_uns t) (r_mis t))
         off pos (len t) (dvar_size t) (gvar_end t).
(** The same node once its container has absorbed it. *)
Definition cont (t : ty) (off pos : N) : Node :=
  let n := root t off pos in
  if 3 <=? dvar_align t then set_flags n (put_misaligned (n_flags n) false) else n.

Definition close_node (e : Element) (ms : list ty) : Node :=
  mkNode (Flags e nid 0 0 false false true false false false false false
            (match e with EStructClose => match ms with [] => true | _ => false end | _ => false end)
            false)
         (1 + lens ms) (size ms) 1 0 0.

Definition memb (body : ty -> list Node) :=
  fix go (off pos : N) (ms : list ty) : list Node :=
    match ms with
    | [] => []
    | m :: ms => (cont m off pos :: body m) ++ go (off + len m) (pos + 1) ms
    end.
(** The nodes that follow the first one. *)
Fixpoint body (t : ty) : list Node :=
  match t with
  | TBasic _ | TVariant => []
  | TArray t | TMaybe t => cont t 1 0 :: body t
  | TStruct ms => memb body 1 0 ms ++ [close_node EStructClose ms]
  | TDict k v => cont (TBasic k) 1 0 :: cont v 2 1 :: body v
                 ++ [close_node EDictClose [TBasic k; v]]
  end.
Definition annot (t : ty) : list Node := root t 0 0 :: body t.

(** The node of an open container with the given complete members. *)
Definition con_el (f : frame) : Element :=
  match f with FArray => EArray | FMaybe => EMaybe | FStruct _ => EStructOpen | FDict _ => EDictOpen end.
Definition con_dva (f : frame) : N := match f with FArray | FMaybe => 2 | _ => 3 end.
Definition con_bound (f : frame) : bool := match f with FArray | FMaybe => true | _ => false end.
Definition con_uns (f : frame) : bool := match f with FMaybe => true | _ => false end.
Definition head (f : frame) (ms : list ty) (off pos : N) : Node :=
  mkNode (Flags (con_el f) nid (con_dva f)
            (fold_left (fun a m => N.max a (gvar_align m)) ms 0)
            true true false false
            (con_bound f || existsb dynamic ms) false (existsb r_han ms)
            (negb (con_bound f) && match ms with [] => true | m :: _ => is_basic m end)
            (con_uns f || existsb r_uns ms)
            (existsb (fun m => (con_dva f <? dvar_align m) || (r_mis m && (dvar_align m <? 3))) ms))
         off pos (1 + lens ms)
         (if con_bound f then 0
          else fold_left (fun n m => pad_to (2 ^ dvar_align m) n + dvar_size m) ms 0)
         (if con_bound f then 0
          else fold_left (fun n m => pad_to (2 ^ gvar_align m) n + gvar_end m) ms 0).

(** Offset and position of the next element, and the index of the innermost
    container. *)
Definition foff (fs : list frame) : N :=
  match fs with [] => 0 | f :: _ => 1 + lens (members f) end.
Definition fpos (fs : list frame) : N :=
  match fs with [] => 0 | f :: _ => size (members f) end.
Definition fup (fs : list frame) : option N :=
  match fs with [] => None | _ :: fs => Some (size (prefix fs)) end.
Fixpoint snodes (fs : list frame) : list Node :=
  match fs with
  | [] => []
  | f :: fs => snodes fs ++ head f (members f) (foff fs) (fpos fs) :: memb body 1 0 (members f)
  end.
End Annot.

(** The abstract machine: a complete type is added to the innermost container;
    arrays and maybes complete in turn. *)
Fixpoint complete (fs : list frame) (t : ty) : ty + list frame :=
  match fs with
  | [] => inl t
  | FArray :: fs => complete fs (TArray t)
  | FMaybe :: fs => complete fs (TMaybe t)
  | FStruct ms :: fs => inr (FStruct (ms ++ [t]) :: fs)
  | FDict ms :: fs => inr (FDict (ms ++ [t]) :: fs)
  end.

Inductive sres := SGo (fs : list frame) | SDone (t : ty) | SFail (e : Error).
Definition scomplete (len idx : N) (fs : list frame) (t : ty) : sres :=
  match complete fs t with
  | inl t => if idx =? len then SDone t else SFail (SignatureSequence idx)
  | inr fs => SGo fs
  end.
Definition basics : list basic :=
  [BByte; BUint16; BInt16; BUint32; BInt32; BUint64; BInt64; BDouble; BBoolean;
   BString; BObjectPath; BSignature; BHandle].
Definition mispaired_idx (f : frame) (fs : list frame) : N :=
  size (prefix (f :: fs)) - foff fs.
Definition sstep (len : N) (fs : list frame) (c : N) : sres :=
  let idx := size (prefix fs) in
  if negb (c <? 128) then SFail (ElementInvalid idx c) else
  match from_code c with
  | None => SFail (ElementUnknown idx c)
  | Some EArray => SGo (FArray :: fs)
  | Some EMaybe => SGo (FMaybe :: fs)
  | Some EStructOpen => SGo (FStruct [] :: fs)
  | Some EDictOpen => SGo (FDict [] :: fs)
  | Some EStructClose =>
    match fs with
    | [] => SFail (ElementUnpaired idx)
    | FStruct ms :: fs => scomplete len (idx + 1) fs (TStruct ms)
    | f :: fs => SFail (ElementMispaired (mispaired_idx f fs) idx (Some EStructOpen))
    end
  | Some EDictClose =>
    match fs with
    | [] => SFail (ElementUnpaired idx)
    | FDict [TBasic k; v] :: fs => scomplete len (idx + 1) fs (TDict k v)
    | FDict _ :: fs => SFail (DictInvalid (size (prefix fs)))
    | f :: fs => SFail (ElementMispaired (mispaired_idx f fs) idx (Some EDictOpen))
    end
  | Some EVariant => scomplete len (idx + 1) fs TVariant
  | Some e =>
    match find (fun b => e_id (basic_el b) =? e_id e) basics with
    | Some b => scomplete len (idx + 1) fs (TBasic b)
    | None => SFail SignatureEmpty
    end
  end.
Fixpoint srun (len : N) (fs : list frame) (rest : list N) : Error + ty :=
  match rest with
  | [] => match fs with [] => inl SignatureEmpty | _ :: fs => inl (SignatureIncomplete (size (prefix fs))) end
  | c :: rest =>
    match sstep len fs c with
    | SGo fs => srun len fs rest
    | SDone t => inr t
    | SFail e => inl e
    end
  end.
