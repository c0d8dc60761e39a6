(** D-Bus signatures: the properties (C13 - C22). *)
From Coq Require Import Ascii String.
From Verif Require Import Base DbusSigModel DbusSpec DbusSigSpec DbusObs.
From Verif Require DbusSigTheory DbusSigResults DbusSigRefuted.
Local Open Scope N_scope.
Local Open Scope res_scope.

(** ** C13: exactly the single complete types are accepted. *)
Theorem sig_accepts_exactly : forall fuel s, size s < 2 ^ 61 ->
  (exists sg, sig_new fuel s = Ok (inr sg)) <-> (exists t, s = print t).
Proof. exact DbusSigResults.accepts_exactly. Qed.
Print Assumptions sig_accepts_exactly.
Example sig_accepts_ex : bytes "a{s(iv)}" =
  print (TArray (TDict BString (TStruct [TBasic BInt32; TVariant]))).
Proof. reflexivity. Qed.
(** The text determines the type, and no type is a proper prefix of another. *)
Theorem sig_grammar_unambiguous : forall t u rest, print t = print u ++ rest -> t = u /\ rest = [].
Proof. exact DbusSigTheory.print_prefix_free. Qed.
Print Assumptions sig_grammar_unambiguous.

(** ** C14: the text round trip. *)
Theorem sig_text_round_trip : forall fuel s sg, sig_new fuel s = Ok (inr sg) -> sig_to_string sg = Ok s.
Proof. exact DbusSigResults.text_round_trip. Qed.
Print Assumptions sig_text_round_trip.
Theorem sig_eq_is_text_eq : forall fuel a b A B,
  sig_new fuel a = Ok (inr A) -> sig_new fuel b = Ok (inr B) ->
  exists v, sig_eq A B = Ok v /\ (v = true <-> a = b).
Proof. exact DbusSigResults.eq_is_text. Qed.
Print Assumptions sig_eq_is_text_eq.
Theorem sig_cmp_is_text_order : forall fuel a b A B,
  sig_new fuel a = Ok (inr A) -> sig_new fuel b = Ok (inr B) ->
  exists v, sig_cmp A B = Ok v /\
    (v = Eq <-> a = b) /\ (v = Lt <-> text_lt a b) /\ (v = Gt <-> text_lt b a).
Proof. exact DbusSigResults.cmp_is_text. Qed.
Print Assumptions sig_cmp_is_text_order.
Theorem sig_hash_is_text : forall fuel a b A B,
  sig_new fuel a = Ok (inr A) -> sig_new fuel b = Ok (inr B) ->
  exists v w, sig_hash A = Ok v /\ sig_hash B = Ok w /\ (v = w <-> a = b).
Proof. exact DbusSigResults.hash_is_text. Qed.
Print Assumptions sig_hash_is_text.
Example sig_round_trip_ex : exists sg, sig_new 0 (bytes "a{sv}") = Ok (inr sg).
Proof. eexists. vm_compute. reflexivity. Qed.

(** ** C15: errors.  The code is exact for all errors, except that the first
    index of a mispairing is not the documented one. *)
Theorem sig_errors_partial : forall fuel s e, size s < 2 ^ 61 ->
  sig_new fuel s = Ok (inl e) <-> rejected reported s e.
Proof. exact DbusSigResults.errors_exact. Qed.
Print Assumptions sig_errors_partial.
Theorem sig_errors_documented_partial : forall fuel s e, size s < 2 ^ 61 ->
  (forall i j x, e <> ElementMispaired i j x) ->
  sig_new fuel s = Ok (inl e) <-> rejected opener s e.
Proof. exact DbusSigResults.errors_documented. Qed.
Print Assumptions sig_errors_documented_partial.
Theorem sig_errors_mispaired_partial : forall fuel s i j x, size s < 2 ^ 61 ->
  sig_new fuel s = Ok (inl (ElementMispaired i j x)) ->
  exists i', rejected opener s (ElementMispaired i' j x).
Proof. exact DbusSigResults.mispaired_documented. Qed.
Print Assumptions sig_errors_mispaired_partial.
Theorem sig_errors_refuted : exists s i j x,
  sig_new 0 s = Ok (inl (ElementMispaired i j x)) /\ ~ rejected opener s (ElementMispaired i j x).
Proof. exact DbusSigRefuted.mispaired_example. Qed.
Print Assumptions sig_errors_refuted.
Example sig_errors_ex :
  sig_new 0 (bytes "a{vs}") = Ok (inl (DictInvalid 1)) /\
  sig_new 0 (bytes "(i)s") = Ok (inl (SignatureSequence 3)) /\
  sig_new 0 (bytes "(ia{s") = Ok (inl (SignatureIncomplete 3)) /\
  sig_new 0 (bytes "(i!)") = Ok (inl (ElementUnknown 2 33)) /\
  sig_new 0 (bytes "a)") = Ok (inl (ElementMispaired 1 1 (Some EStructOpen))) /\
  sig_new 0 (bytes ")") = Ok (inl (ElementUnpaired 0)).
Proof. repeat (split; [vm_compute; reflexivity|]). vm_compute. reflexivity. Qed.

(** ** C16: no panic, no endless loop.  [fuel] is arbitrary: no step of it is
    ever used with a buffer of the computed size. *)
Theorem sig_new_total : forall fuel s, size s < 2 ^ 61 -> exists r, sig_new fuel s = Ok r.
Proof. exact DbusSigResults.parses_always. Qed.
Print Assumptions sig_new_total.
(** Texts longer than any address space can hold are refused by a panic. *)
Theorem sig_new_huge_panics : forall fuel s, 2 ^ 61 <= size s -> sig_new fuel s = Panic.
Proof. exact DbusSigRefuted.huge_example. Qed.
Print Assumptions sig_new_huge_panics.
(** Into a buffer of another size, if that is a multiple of the node size. *)
Theorem sig_parse_total_partial : forall fuel data s, size s < 2 ^ 61 ->
  forall coeff, coeff = (if size s <=? 31 then 1 else 6) ->
  size s * coeff <= data -> data mod coeff = 0 ->
  exists r, sig_parse fuel data s = Ok r /\
    match r with
    | inl e => sig_new fuel s = Ok (inl e)
    | inr sg => exists sg', sig_new fuel s = Ok (inr sg') /\ s_kind sg = s_kind sg' /\
                  s_nodes sg = s_nodes sg' ++ repeat None (N.to_nat (data / coeff - size s))
    end.
Proof. exact DbusSigResults.parse_fits. Qed.
Print Assumptions sig_parse_total_partial.
(** Otherwise it loops forever or panics. *)
Theorem sig_parse_terminates_refuted : exists s data, (exists t, s = print t) /\
  (exists need, size_for_length (size s) = Ok need /\ need <= data) /\
  forall fuel, sig_parse fuel data s = NoFuel.
Proof. exact DbusSigRefuted.pad_example. Qed.
Print Assumptions sig_parse_terminates_refuted.
Theorem sig_parse_no_panic_refuted : exists s data, (exists t, s = print t) /\
  forall fuel, sig_parse fuel data s = Panic.
Proof. exact DbusSigRefuted.small_example. Qed.
Print Assumptions sig_parse_no_panic_refuted.

(** ** C17: structure.  Every index starts a type or closes one. *)
Theorem sig_index_cases : forall t i, i < size (print t) ->
  exists fs u, occurs t fs u /\
    (i = index fs \/ inner u <> None /\ i + 1 = index fs + size (print u)).
Proof. exact DbusSigResults.index_cases. Qed.
Print Assumptions sig_index_cases.
Theorem sig_elements_are_text : forall fuel s sg i, sig_new fuel s = Ok (inr sg) ->
  exists e, c_element (mkCursor sg i) = Ok e /\ option_map e_code e = nth_error s (N.to_nat i).
Proof. exact DbusSigResults.element_is_text. Qed.
Print Assumptions sig_elements_are_text.
Theorem sig_structure : forall fuel t sg fs u, sig_new fuel (print t) = Ok (inr sg) -> occurs t fs u ->
  let c := mkCursor sg (index fs) in
  c_length c = Ok (Some (size (print u))) /\
  c_position c = Ok (Some (siblings_before fs)) /\
  idx_up c = Ok (container fs) /\
  idx_down c = Ok (if opens u then Some (index fs + 1) else None) /\
  idx_step c = Ok (if stepping fs then Some (index fs + size (print u)) else None).
Proof. exact DbusSigResults.structure_start. Qed.
Print Assumptions sig_structure.
Theorem sig_structure_closing : forall fuel t sg fs u ms,
  sig_new fuel (print t) = Ok (inr sg) -> occurs t fs u -> inner u = Some ms ->
  let c := mkCursor sg (index fs + size (print u) - 1) in
  c_length c = Ok (Some 1) /\ c_position c = Ok (Some (size ms)) /\ idx_up c = Ok (Some (index fs)) /\
  idx_down c = Ok None /\ idx_step c = Ok None /\ c_sub c = Ok None.
Proof. exact DbusSigResults.structure_close. Qed.
Print Assumptions sig_structure_closing.
Theorem sig_structure_past_end : forall fuel s sg i, sig_new fuel s = Ok (inr sg) -> size s <= i ->
  let c := mkCursor sg i in
  c_element c = Ok None /\ c_length c = Ok None /\ c_position c = Ok None /\ idx_up c = Ok None /\
  idx_down c = Ok None /\ idx_step c = Ok None /\
  c_dvar_alignment_exp c = Ok None /\ c_gvar_alignment_exp c = Ok None /\ c_sub c = Ok None.
Proof. exact DbusSigResults.structure_past. Qed.
Print Assumptions sig_structure_past_end.
Example sig_structure_ex :
  let t := TStruct [TBasic BInt32; TArray (TDict BString TVariant)] in
  let fs := [FDict [TBasic BString]; FArray; FStruct [TBasic BInt32]] in
  occurs t fs TVariant /\ print t = bytes "(ia{sv})" /\ index fs = 5 /\ container fs = Some 3.
Proof.
  split; [|repeat split; vm_compute; reflexivity].
  eapply occ_value, occ_array, (occ_struct _ [] [TBasic BInt32] _ []), occ_root.
Qed.

(** ** C18: alignment and size. *)
Theorem sig_alignment : forall fuel t sg fs u, sig_new fuel (print t) = Ok (inr sg) -> occurs t fs u ->
  let c := mkCursor sg (index fs) in
  c_dvar_alignment_exp c = Ok (Some (dvar_align u)) /\
  c_gvar_alignment_exp c = Ok (Some (gvar_align u)).
Proof. exact DbusSigResults.alignment. Qed.
Print Assumptions sig_alignment.
(** The sizes; that of GVariant lacks the padding at the end of structs. *)
Theorem sig_sizes_partial : forall fuel t sg fs u, sig_new fuel (print t) = Ok (inr sg) -> occurs t fs u ->
  exists n, node_at sg (index fs) = Ok (Some n) /\
    n_dvar_size n = dvar_size u /\ n_gvar_size n = gvar_end u.
Proof. exact DbusSigResults.sizes_partial. Qed.
Print Assumptions sig_sizes_partial.
Theorem sig_gvar_size_refuted : exists t sg n,
  sig_new 0 (print t) = Ok (inr sg) /\ node_at sg 0 = Ok (Some n) /\
  dynamic t = false /\ n_gvar_size n <> gvar_size t.
Proof. exact DbusSigRefuted.gvar_size_example. Qed.
Print Assumptions sig_gvar_size_refuted.
Example sig_sizes_ex : dvar_size (TStruct [TBasic BByte; TBasic BUint64; TBasic BUint16]) = 18 /\
  gvar_align (TArray (TStruct [TBasic BByte; TBasic BUint32])) = 2.
Proof. split; vm_compute; reflexivity. Qed.

(** ** C19: flags.  The flags of containers do not tell that they contain a
    variant, nor those of an empty struct that it is unsupported. *)
Theorem sig_flags_partial : forall fuel t sg fs u, sig_new fuel (print t) = Ok (inr sg) -> occurs t fs u ->
  exists f, node_flags sg (index fs) = Ok (Some f) /\
    f_prefix f = true /\ f_open f = opens u /\ f_close f = false /\
    (f_basic f = true <-> exists b, u = TBasic b) /\
    (f_dynamic f = true <-> contains u dynamic_one) /\
    (f_handle f = true <-> contains u (fun v => v = TBasic BHandle)) /\
    (f_variant f = true <-> u = TVariant) /\
    (f_dict f = true <-> exists b v, inner u = Some [TBasic b; v]) /\
    (f_dvar_unsupported f = true <-> contains u (fun v => exists w, v = TMaybe w)).
Proof. exact DbusSigResults.flags_partial. Qed.
Print Assumptions sig_flags_partial.
Theorem sig_variant_flag_refuted : exists t sg f,
  sig_new 0 (print t) = Ok (inr sg) /\ node_flags sg 0 = Ok (Some f) /\
  contains t (fun u => u = TVariant) /\ f_variant f = false.
Proof. exact DbusSigRefuted.variant_example. Qed.
Print Assumptions sig_variant_flag_refuted.
Theorem sig_empty_struct_flag_refuted : exists sg f g,
  sig_new 0 (print (TStruct [])) = Ok (inr sg) /\ node_flags sg 0 = Ok (Some f) /\
  f_dvar_unsupported f = false /\ node_flags sg 1 = Ok (Some g) /\ f_dvar_unsupported g = true.
Proof. exact DbusSigRefuted.empty_struct_example. Qed.
Print Assumptions sig_empty_struct_flag_refuted.
Example sig_flags_ex : contains (TArray (TStruct [TBasic BByte; TBasic BHandle])) (fun v => v = TBasic BHandle).
Proof.
  exists [FStruct [TBasic BByte]; FArray], (TBasic BHandle). split; [|reflexivity].
  apply (occ_struct _ [FArray] [TBasic BByte] _ []), occ_array, occ_root.
Qed.

(** ** C20: length. *)
Theorem sig_len_partial : forall fuel s sg, sig_new fuel s = Ok (inr sg) ->
  sig_len sg = Ok (if size s <=? 31 then size s else 6 * size s).
Proof. exact DbusSigResults.len_partial. Qed.
Print Assumptions sig_len_partial.
Theorem sig_len_refuted : exists s sg, sig_new 0 s = Ok (inr sg) /\ sig_len sg <> Ok (size s).
Proof. exact DbusSigRefuted.len_example. Qed.
Print Assumptions sig_len_refuted.
Example sig_len_ex : exists sg, sig_new 0 (bytes "a{sv}") = Ok (inr sg) /\ sig_len sg = Ok 5.
Proof. eexists. split; vm_compute; reflexivity. Qed.

(** ** C21: navigation (with [sig_structure] and the two theorems after it).
    No sequence of moves panics, from any index.  It stays within the text,
    unless the signature is longer than 31 and moves to next elements are
    among them. *)
Theorem sig_moves_partial : forall fuel s sg ms i, sig_new fuel s = Ok (inr sg) ->
  exists j, do_moves (mkCursor sg i) ms = Ok (mkCursor sg j) /\
    (i <= size s -> (size s <= 31 \/ ~ In Next ms) -> j <= size s).
Proof. exact DbusSigResults.moves_total. Qed.
Print Assumptions sig_moves_partial.
Theorem sig_moves_refuted : exists s sg, sig_new 0 s = Ok (inr sg) /\
  exists c, do_moves (mkCursor sg 0) (repeat Next (N.to_nat (size s + 1))) = Ok c /\ size s < c_idx c.
Proof. exact DbusSigRefuted.next_example. Qed.
Print Assumptions sig_moves_refuted.
Theorem sig_next_prev : forall fuel s sg i, sig_new fuel s = Ok (inr sg) -> i < size s ->
  idx_next (mkCursor sg i) = Ok (Some (i + 1)) /\ idx_prev (mkCursor sg (i + 1)) = Some i.
Proof. exact DbusSigResults.next_prev. Qed.
Print Assumptions sig_next_prev.
(** Going down and stepping visits the members of a struct or dict in turn and
    ends at its closing element. *)
Theorem sig_walk : forall fuel t sg fs u ms,
  sig_new fuel (print t) = Ok (inr sg) -> occurs t fs u -> inner u = Some ms ->
  forall n, (n <= length ms)%nat ->
  do_moves (mkCursor sg (index fs)) (Down :: repeat Step n) =
  Ok (mkCursor sg (index fs + 1 + size (flat_map print (firstn n ms)))).
Proof. exact DbusSigResults.walk. Qed.
Print Assumptions sig_walk.
Example sig_walk_ex : exists sg, sig_new 0 (bytes "(ia{sv}u)") = Ok (inr sg) /\
  do_moves (mkCursor sg 0) [Down; Step; Step; Step; Step] = Ok (mkCursor sg 8).
Proof. eexists. split; vm_compute; reflexivity. Qed.

(** ** C22: sub-signatures.  All queries agree at every index; the reported
    length does if the text has at most 31 elements. *)
Theorem sig_sub_partial : forall fuel t sg fs u, sig_new fuel (print t) = Ok (inr sg) -> occurs t fs u ->
  exists sub own, c_sub (mkCursor sg (index fs)) = Ok (Some sub) /\
    sig_new fuel (print u) = Ok (inr own) /\
    sig_to_string sub = Ok (print u) /\ sig_eq sub own = Ok true /\ sig_cmp sub own = Ok Eq /\
    sig_hash sub = sig_hash own /\ same_queries sub own /\
    (size (print t) <= 31 -> sig_len sub = sig_len own).
Proof. exact DbusSigResults.sub_signature. Qed.
Print Assumptions sig_sub_partial.
Theorem sig_sub_len_refuted : exists t sg fs u sub own,
  sig_new 0 (print t) = Ok (inr sg) /\ occurs t fs u /\ c_sub (mkCursor sg (index fs)) = Ok (Some sub) /\
  sig_new 0 (print u) = Ok (inr own) /\ sig_len sub <> sig_len own.
Proof. exact DbusSigRefuted.sub_len_example. Qed.
Print Assumptions sig_sub_len_refuted.
