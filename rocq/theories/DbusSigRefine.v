(** The signature parser refines the abstract stack machine: every iteration. *)
From Verif Require Import Base DbusSigModel DbusSpec DbusSigAnnot DbusSigProofs.
Local Open Scope N_scope.
Local Open Scope res_scope.

Lemma len_array t : len (TArray t) = 1 + len t.
Proof. unfold len. cbn [print]. apply size_cons. Qed.
Lemma len_maybe t : len (TMaybe t) = 1 + len t.
Proof. unfold len. cbn [print]. apply size_cons. Qed.
Lemma len_struct ms : len (TStruct ms) = 2 + lens ms.
Proof. unfold len. cbn [print]. rewrite size_cons, size_app, flat_map_size, size_cons, size_nil. lia. Qed.
Lemma len_dict b v : len (TDict b v) = 3 + len v.
Proof. unfold len. cbn [print]. rewrite !size_cons, size_app, size_cons, size_nil. lia. Qed.

Lemma fup_foff fs : match fup fs with
                    | None => foff fs = 0
                    | Some i => foff fs <> 0 /\ size (prefix fs) = i + foff fs
                    end.
Proof. destruct fs as [|f fs]; [reflexivity|]. cbn [fup]. rewrite prefix_foff. cbn [foff]. lia. Qed.

Section K.
Context (k : kind).
Hypothesis wf_kind : length_max k <= field_max k.
Notation nid := (node_id k).

Lemma merge_size_ok f ms t off pos o p :
  con_bound f = false -> 1 + lens ms + len t <= length_max k ->
  merge_size k (cont nid t o p)
    (heads k f (ms ++ [t]) (n_dvar_size (head nid f ms off pos)) (n_gvar_size (head nid f ms off pos)) off pos)
  = Ok (head nid f (ms ++ [t]) off pos).
Proof.
  intros B H. destruct (int_field k wf_kind _ H) as [_ [_ H8]].
  assert (Fd : Forall (fun m => dvar_size m <= 8 * len m) ms) by (apply Forall_forall; intros; apply dvar_size_le).
  assert (Fg : Forall (fun m => gvar_end m <= 8 * len m) ms) by (apply Forall_forall; intros; apply gvar_end_le).
  pose proof (fold_size_le dvar_align dvar_size dvar_align_le ms Fd 0 0 ltac:(lia)) as Bd.
  pose proof (fold_size_le gvar_align gvar_end gvar_align_le ms Fg 0 0 ltac:(lia)) as Bg.
  pose proof (dvar_size_le t) as Td. pose proof (gvar_end_le t) as Tg.
  destruct (pow_align _ (dvar_align_le t)) as [Zd Md].
  destruct (pow_align _ (gvar_align_le t)) as [Zg Mg].
  pose proof (pad_to_le _ _ _ Zd Bd (Md _)) as Pd.
  pose proof (pad_to_le _ _ _ Zg Bg (Mg _)) as Pg.
  unfold merge_size, cont. cbv zeta. rewrite if_mis.
  unfold heads, head, root, set_flags, set_sizes.
  cbn [put_misaligned n_flags n_offset n_position n_length n_dvar_size n_gvar_size
       f_dvar_alignment_exp f_gvar_alignment_exp].
  rewrite B. unfold fold_size in *.
  rewrite next_multiple_of_ok by (exact Zd || lia). cbn [bind].
  rewrite strict_add_ok by lia. cbn [bind].
  rewrite next_multiple_of_ok by (exact Zg || lia). cbn [bind].
  rewrite strict_add_ok by lia. cbn [bind].
  rewrite !(fold_left_app _ ms [t] 0). reflexivity.
Qed.

(** Going to a node placed by the stack machine finds its container. *)
Lemma goto_ok fs n b tail :
  n_offset n = foff fs ->
  parse_goto (size (prefix fs)) (buf (snodes nid fs ++ n :: b) tail) =
  Ok (size (prefix fs), fup fs).
Proof.
  intros Hn. unfold parse_goto. rewrite rd_buf by (symmetry; apply snodes_size). cbn [bind].
  rewrite Hn. pose proof (fup_foff fs) as F. destruct fs as [|f fs].
  - reflexivity.
  - cbn [fup] in *. destruct F as [F1 F2].
    rewrite (proj2 (N.eqb_neq _ _) F1).
    rewrite strict_sub_ok by lia. cbn [bind].
    replace (size (prefix (f :: fs)) - foff (f :: fs)) with (size (prefix fs)) by lia.
    cbn [snodes]. rewrite <- app_assoc. cbn [app].
    rewrite rd_buf by (symmetry; apply snodes_size). reflexivity.
Qed.

Definition fcomplete (r : ty + list frame) (tail : buffer) (res : res (option N * N * buffer)) : Prop :=
  match r with
  | inl t => exists p, res = Ok (None, p, buf (annot nid t) tail)
  | inr fs => res = Ok (fup fs, fpos fs, buf (snodes nid fs) tail)
  end.

Lemma head_array t off pos : heads k FArray [t] 0 0 off pos = root nid (TArray t) off pos.
Proof.
  unfold heads, head, root, set_sizes.
  cbn [n_flags n_offset n_position n_length n_dvar_size n_gvar_size con_el con_dva con_bound con_uns
       existsb fold_left orb andb negb ty_el dvar_align gvar_align is_container is_basic dynamic is_variant
       r_han r_dict r_uns r_mis gvar_end dvar_size].
  rewrite len_array, lens1, !orb_false_r, N.max_0_l. reflexivity.
Qed.
Lemma head_maybe t off pos : heads k FMaybe [t] 0 0 off pos = root nid (TMaybe t) off pos.
Proof.
  unfold heads, head, root, set_sizes.
  cbn [n_flags n_offset n_position n_length n_dvar_size n_gvar_size con_el con_dva con_bound con_uns
       existsb fold_left orb andb negb ty_el dvar_align gvar_align is_container is_basic dynamic is_variant
       r_han r_dict r_uns r_mis gvar_end dvar_size].
  rewrite len_maybe, lens1, ?orb_false_r, N.max_0_l. reflexivity.
Qed.

Lemma root_body_array t off pos :
  root nid (TArray t) off pos :: body nid (TArray t)
  = heads k FArray [t] 0 0 off pos :: cont nid t 1 0 :: body nid t.
Proof. rewrite head_array. reflexivity. Qed.
Lemma root_body_maybe t off pos :
  root nid (TMaybe t) off pos :: body nid (TMaybe t)
  = heads k FMaybe [t] 0 0 off pos :: cont nid t 1 0 :: body nid t.
Proof. rewrite head_maybe. reflexivity. Qed.
Lemma snodes_unbound f f' ms t fs tail : con_bound f = false ->
  con_el f' = con_el f -> con_bound f' = false -> con_uns f' = con_uns f -> con_dva f' = con_dva f ->
  members f' = ms ++ [t] ->
  buf (snodes nid fs ++ head nid f (ms ++ [t]) (foff fs) (fpos fs)
       :: memb nid (body nid) 1 0 ms ++ cont nid t (1 + lens ms) (size ms) :: body nid t) tail
  = buf (snodes nid (f' :: fs)) tail.
Proof.
  intros B E1 E2 E3 E4 E5. cbn [snodes]. rewrite E5, memb_app, N.add_0_l. f_equal. f_equal. f_equal.
  unfold head. rewrite B, E1, E2, E3, E4. reflexivity.
Qed.

Lemma propagate_ok tail fs : forall fuel t position,
  (length fs < fuel)%nat -> size (prefix fs) + len t <= length_max k -> position = fpos fs + 1 ->
  fcomplete (complete fs t) tail
    (propagate k fuel (size (prefix fs)) (fup fs) (fup fs) position
       (buf (snodes nid fs ++ root nid t (foff fs) (fpos fs) :: body nid t) tail)).
Proof.
  induction fs as [|f fs IH]; intros fuel t position Hfuel Hlen Hpos.
  - destruct fuel; [lia|]. cbn. eexists. reflexivity.
  - destruct fuel as [|fuel]; [lia|]. cbn [length] in Hfuel.
    rewrite prefix_foff in Hlen. cbn [foff] in Hlen.
    assert (Hm : 1 + lens (members f) + len t <= length_max k) by lia.
    cbn [propagate fup].
    rewrite rd_buf by (symmetry; apply snodes_size). cbn [bind].
    cbn [snodes]. rewrite <- app_assoc. cbn [app].
    rewrite rd_buf by (symmetry; apply snodes_size). cbn [bind foff fpos].
    rewrite (merge_ok k wf_kind) by exact Hm. cbn [bind].
    (* writing back [this] *)
    rewrite app_comm_cons, app_assoc.
    change (snodes nid fs ++ head nid f (members f) (foff fs) (fpos fs)
            :: memb nid (body nid) 1 0 (members f)) with (snodes nid (f :: fs)).
    rewrite wr_buf by (symmetry; apply snodes_size). cbn [bind].
    cbn [snodes]. rewrite <- app_assoc. cbn [app].
    rewrite wr_buf by (symmetry; apply snodes_size). cbn [bind].
    assert (Bound : forall T, con_bound f = true -> members f = [] ->
              root nid T (foff fs) (fpos fs) :: body nid T
              = heads k f [t] 0 0 (foff fs) (fpos fs) :: cont nid t 1 0 :: body nid t ->
              len T = 1 + len t ->
              is_some (e_pair (con_el f)) = false ->
              fcomplete (complete fs T) tail
                (do '(this_idx, o_up_idx) <-
                    parse_goto (size (prefix fs))
                      (buf (snodes nid fs ++ heads k f [t] 0 0 (foff fs) (fpos fs) ::
                             cont nid t 1 0 :: body nid t) tail);
                 do this <- rd (buf (snodes nid fs ++ heads k f [t] 0 0 (foff fs) (fpos fs) ::
                             cont nid t 1 0 :: body nid t) tail) this_idx;
                 do position <- strict_add k (n_position this) 1;
                 propagate k fuel this_idx o_up_idx o_up_idx position
                   (buf (snodes nid fs ++ heads k f [t] 0 0 (foff fs) (fpos fs) ::
                             cont nid t 1 0 :: body nid t) tail))).
    { intros T B E1 E2 E3 E4. rewrite goto_ok by reflexivity. cbn [bind].
      rewrite rd_buf by (symmetry; apply snodes_size). cbn [bind].
      change (n_position (heads k f [t] 0 0 (foff fs) (fpos fs))) with (fpos fs).
      pose proof (fpos_le fs) as Hp. pose proof (len_pos t) as Hl.
      destruct (int_field k wf_kind (fpos fs + 1) ltac:(lia)) as [_ [Hi _]].
      rewrite strict_add_ok by exact Hi. cbn [bind].
      rewrite <- E2. apply IH; [lia| |reflexivity]. rewrite E3, E1 in *. cbn [lens] in *. lia. }
    destruct f as [| |ms|ms]; cbn [members complete] in *.
    + apply (Bound (TArray t)); try reflexivity; [apply root_body_array|apply len_array].
    + apply (Bound (TMaybe t)); try reflexivity; [apply root_body_maybe|apply len_maybe].
    + clear Bound IH.
      change (f_open _) with true. change (is_some _) with true. cbn [andb negb].
      rewrite merge_size_ok by (reflexivity || exact Hm). cbn [bind].
      rewrite wr_buf by (symmetry; apply snodes_size). cbn [bind fcomplete].
      rewrite (snodes_unbound _ (FStruct (ms ++ [t]))) by reflexivity.
      cbn [fup fpos members]. rewrite size_app, size_cons, size_nil, Hpos. cbn [fpos members].
      reflexivity.
    + clear Bound IH.
      change (f_open _) with true. change (is_some _) with true. cbn [andb negb].
      rewrite merge_size_ok by (reflexivity || exact Hm). cbn [bind].
      rewrite wr_buf by (symmetry; apply snodes_size). cbn [bind fcomplete].
      rewrite (snodes_unbound _ (FDict (ms ++ [t]))) by reflexivity.
      cbn [fup fpos members]. rewrite size_app, size_cons, size_nil, Hpos. cbn [fpos members].
      reflexivity.
Qed.

Definition st (fs : list frame) (tail : buffer) : state := St (fpos fs) (fup fs) (buf (snodes nid fs) tail).
Definition sim (r : sres) (tail : buffer) (o : res outcome) : Prop :=
  match r with
  | SGo fs => o = Ok (Go (st fs tail))
  | SDone t => o = Ok (Done (buf (annot nid t) tail))
  | SFail e => o = Ok (Fail e)
  end.

Lemma completed_ok n idx fs t tail :
  size (prefix fs) + len t <= length_max k ->
  sim (scomplete n idx fs t) tail
    (completed k n idx (size (prefix fs)) (fup fs) (fup fs) (fpos fs + 1)
       (buf (snodes nid fs ++ root nid t (foff fs) (fpos fs) :: body nid t) tail)).
Proof.
  intros H. unfold completed, scomplete.
  pose proof (frames_le fs) as Hf. unfold size at 1 in Hf.
  pose proof (propagate_ok tail fs (S (N.to_nat (size (prefix fs)))) t (fpos fs + 1) ltac:(lia) H eq_refl) as P.
  destruct (complete fs t) as [t'|fs'] eqn:E; cbn [fcomplete] in P.
  - destruct P as [p ->]. cbn [bind]. destruct (idx =? n); reflexivity.
  - rewrite P. cbn [bind]. destruct fs' as [|f fs'].
    + exfalso. clear - E. revert t E. induction fs as [|[| |ms|ms] fs IH]; intros t E; cbn in E;
        try discriminate; eapply IH; exact E.
    + reflexivity.
Qed.

Lemma existsb_ext' ms :
  existsb (fun m => (3 <? dvar_align m) || r_mis m && (dvar_align m <? 3)) ms
  = existsb (fun m => r_mis m && (dvar_align m <? 3)) ms.
Proof.
  induction ms as [|m ms IH]; [reflexivity|]. cbn [existsb]. rewrite IH.
  rewrite (proj2 (N.ltb_ge 3 (dvar_align m)) (dvar_align_le m)). reflexivity.
Qed.
(** The node of a closing element. *)
Definition raw_close (e : Element) (off pos : N) : Node :=
  mkNode (set_node (e_flags e) nid) off pos 1 (e_dvar_size e) (e_gvar_size e).

Lemma dict_len (ms : list ty) (b : bool) : 
  (if b && negb (size ms + 1 =? 3) then false else b) = b && (size ms =? 2).
Proof.
  destruct (N.eqb_spec (size ms + 1) 3), (N.eqb_spec (size ms) 2); destruct b; cbn; try reflexivity; lia.
Qed.
Lemma pair_like_ok ms :
  match ms with [] => true | m :: _ => is_basic m end && (size ms =? 2) = pair_like ms.
Proof.
  destruct ms as [|a [|b [|c ms]]]; cbn [pair_like]; try reflexivity.
  - apply andb_false_r.
  - apply andb_true_r.
  - rewrite (proj2 (N.eqb_neq _ _)); [apply andb_false_r|]. rewrite !size_cons. lia.
Qed.

Lemma close_head f ms T off pos :
  (f = FStruct ms /\ T = TStruct ms \/ exists b v, f = FDict ms /\ ms = [TBasic b; v] /\ T = TDict b v) ->
  len T <= length_max k ->
  (do up <- set_length k
      (let up := head nid f ms off pos in
       if f_dict (n_flags up) && negb (size ms + 1 =? 3)
       then set_flags up (put_dict (n_flags up) false) else up) (1 + lens ms + 1);
   Ok up) = Ok (root nid T off pos).
Proof.
  intros HT HL. cbv zeta. rewrite if_dict. unfold set_length.
  destruct (int_field k wf_kind _ HL) as [Hf _].
  assert (E : 1 + lens ms + 1 = len T).
  { destruct HT as [[-> ->]|[b [v [-> [-> ->]]]]].
    - rewrite len_struct. lia.
    - rewrite len_dict. cbn [lens]. unfold len at 1. cbn [print]. rewrite size_cons, size_nil. lia. }
  rewrite E, (proj2 (N.leb_le _ _) Hf). cbn [bind]. f_equal.
  unfold head, root, set_flags.
  cbn [put_dict n_flags n_offset n_position n_length n_dvar_size n_gvar_size f_dict].
  rewrite dict_len.
  destruct HT as [[-> ->]|[b [v [-> [-> ->]]]]].
  - cbn [con_bound negb andb]. rewrite pair_like_ok.
    assert (M : existsb (fun m => (con_dva (FStruct ms) <? dvar_align m) || r_mis m && (dvar_align m <? 3)) ms
                = r_mis (TStruct ms)).
    { cbn [con_dva r_mis]. apply existsb_ext'. }
    rewrite M. reflexivity.
  - cbn [con_bound con_dva con_uns con_el negb andb existsb is_basic lens]. 
    cbn [ty_el dvar_align gvar_align is_container is_basic dynamic is_variant r_han r_dict r_uns r_mis
         gvar_end dvar_size fold_left orb negb andb].
    rewrite !orb_false_r, N.max_0_l.
    rewrite (proj2 (N.ltb_ge 3 (dvar_align v)) (dvar_align_le v)).
    rewrite (proj2 (N.ltb_ge 3 (basic_dvar_align b)) (dvar_align_le (TBasic b))).
    change (size [TBasic b; v] =? 2) with true. cbn [orb].
    replace (pad_to (2 ^ basic_dvar_align b) 0) with 0 by (destruct b; reflexivity).
    replace (pad_to (2 ^ basic_gvar_align b) 0) with 0 by (destruct b; reflexivity).
    rewrite !N.add_0_l. reflexivity.
Qed.

Definition closer (f : frame) : Element := match f with FStruct _ => EStructClose | _ => EDictClose end.

Lemma close_ok f ms fs T tail :
  members f = ms ->
  (f = FStruct ms /\ T = TStruct ms \/ exists b v, f = FDict ms /\ ms = [TBasic b; v] /\ T = TDict b v) ->
  size (prefix fs) + len T <= length_max k ->
  close k (size (prefix (f :: fs))) (fup (f :: fs)) (size ms + 1)
    (buf (snodes nid (f :: fs) ++ [raw_close (closer f) (1 + lens ms) (size ms)]) tail)
  = Ok (inr (size (prefix fs), fup fs, fpos fs + 1,
             buf (snodes nid fs ++ root nid T (foff fs) (fpos fs) :: body nid T) tail)).
Proof.
  intros Hms HT HL. cbn [fup close].
  rewrite rd_buf by (symmetry; apply snodes_size). cbn [bind].
  cbn [snodes]. rewrite <- app_assoc. cbn [app].
  rewrite rd_buf by (symmetry; apply snodes_size). cbn [bind].
  rewrite Hms.
  pose proof (close_head f ms T (foff fs) (fpos fs) HT ltac:(lia)) as CH. cbv zeta in CH.
  assert (Hpp : size (prefix (f :: fs)) = size (prefix fs) + (1 + lens ms))
    by (rewrite prefix_foff; cbn [foff]; rewrite Hms; reflexivity).
  assert (Hl : 1 + lens ms + 1 = len T).
  { destruct HT as [[-> ->]|[b [v [-> [-> ->]]]]].
    - rewrite len_struct. lia.
    - rewrite len_dict. cbn [lens]. unfold len at 1. cbn [print]. rewrite size_cons, size_nil. lia. }
  pose proof (fpos_le fs) as Hp.
  destruct (int_field k wf_kind (len T) ltac:(lia)) as [_ [Hi _]].
  destruct (int_field k wf_kind (fpos fs + 1) ltac:(lia)) as [_ [Hi' _]].
  set (up := if f_dict (n_flags (head nid f ms (foff fs) (fpos fs))) && negb (size ms + 1 =? 3)
             then _ else _) in *.
  assert (Hup : n_length up = 1 + lens ms).
  { unfold up. rewrite if_dict. reflexivity. }
  assert (HT2 : exists cl, body nid T = memb nid (body nid) 1 0 ms ++ [cl] /\
     cl = close_node nid (closer f) ms).
  { destruct HT as [[-> ->]|[b [v [-> [-> ->]]]]]; eexists; split; try reflexivity.
    cbn [body memb app]. change (1 + len (TBasic b)) with 2. rewrite app_nil_r. reflexivity. }
  destruct HT2 as [cl [HB Hcl]].
  assert (G : forall this, n_offset this = 1 + lens ms -> n_length this = 1 -> this = cl ->
    (do l <- strict_add k (n_length up) (n_length this);
     do up <- set_length k up l;
     do nodes <- wr (buf (snodes nid fs ++ head nid f ms (foff fs) (fpos fs)
                          :: memb nid (body nid) 1 0 ms ++ [raw_close (closer f) (1 + lens ms) (size ms)]) tail)
                    (size (prefix (f :: fs))) this;
     do nodes <- wr nodes (size (prefix fs)) up;
     do i <- strict_sub (size (prefix (f :: fs))) (n_offset this);
     do '(this_idx, o_up_idx) <- parse_goto i nodes;
     do this <- rd nodes this_idx;
     do position <- strict_add k (n_position this) 1;
     Ok (inr (A := Error) (this_idx, o_up_idx, position, nodes)))
    = Ok (inr (size (prefix fs), fup fs, fpos fs + 1,
             buf (snodes nid fs ++ root nid T (foff fs) (fpos fs) :: body nid T) tail))).
  { intros this H1 H2 H3. rewrite H1, H2, Hup. rewrite strict_add_ok by lia. cbn [bind].
    destruct (set_length k up (1 + lens ms + 1)) as [up'| |]; cbn [bind] in *; try discriminate.
    injection CH as ->.
    rewrite app_comm_cons, app_assoc.
    rewrite wr_buf by (rewrite size_app, size_cons, memb_size, snodes_size, Hpp; lia). cbn [bind].
    rewrite <- app_assoc. cbn [app].
    rewrite wr_buf by (symmetry; apply snodes_size). cbn [bind].
    rewrite strict_sub_ok by lia. cbn [bind].
    replace (size (prefix (f :: fs)) - (1 + lens ms)) with (size (prefix fs)) by lia.
    rewrite goto_ok by reflexivity. cbn [bind].
    rewrite rd_buf by (symmetry; apply snodes_size). cbn [bind root n_position].
    rewrite strict_add_ok by exact Hi'. cbn [bind]. rewrite HB, H3. reflexivity. }
  destruct HT as [[-> ->]|[b [v [-> [-> ->]]]]].
  - cbn [raw_close n_element n_flags e_flags meta m_flags element set_node f_element e_pair m_pair
         head con_el e_id N.eqb Pos.eqb negb closer bind].
    set (this := if size ms + 1 =? 1 then _ else _).
    assert (E : this = cl).
    { subst cl. unfold this. destruct ms as [|m ms']; [reflexivity|].
      rewrite (proj2 (N.eqb_neq _ _)) by (rewrite size_cons; lia). reflexivity. }
    clearbody this. subst this. rewrite Hcl.
    change (n_element (close_node nid (closer (FStruct ms)) ms)) with EStructClose. cbn [bind].
    apply G; try reflexivity. symmetry. exact Hcl.
  - assert (Hd : f_dict (n_flags up) = true) by reflexivity.
    cbn [raw_close n_element n_flags e_flags meta m_flags element set_node f_element e_pair m_pair
         head con_el e_id N.eqb Pos.eqb negb closer bind].
    fold up. rewrite Hd. cbn [negb bind].
    apply G; try reflexivity. subst cl. reflexivity.
Qed.

Lemma close_unpaired idx position nodes :
  close k idx None position nodes = Ok (inl (ElementUnpaired idx)).
Proof. reflexivity. Qed.

Lemma close_mispaired f fs e e' off pos position tail :
  e_pair e = Some e' -> e_id e' <> e_id (con_el f) ->
  close k (size (prefix (f :: fs))) (fup (f :: fs)) position
    (buf (snodes nid (f :: fs) ++ [raw_close e off pos]) tail)
  = Ok (inl (ElementMispaired (mispaired_idx f fs) (size (prefix (f :: fs))) (Some e'))).
Proof.
  intros He Hd. cbn [fup close].
  rewrite rd_buf by (symmetry; apply snodes_size). cbn [bind].
  cbn [snodes]. rewrite <- app_assoc. cbn [app].
  rewrite rd_buf by (symmetry; apply snodes_size). cbn [bind].
  replace (n_element (raw_close e off pos)) with e by (destruct e; reflexivity).
  rewrite He. change (n_element (head nid f (members f) (foff fs) (fpos fs))) with (con_el f).
  rewrite (proj2 (N.eqb_neq _ _) Hd). cbn [negb head n_offset].
  rewrite strict_sub_ok; [reflexivity|].
  rewrite prefix_foff. pose proof (foff_le fs). lia.
Qed.

Lemma close_dict_bad ms fs tail :
  pair_like ms = false ->
  close k (size (prefix (FDict ms :: fs))) (fup (FDict ms :: fs)) (size ms + 1)
    (buf (snodes nid (FDict ms :: fs) ++ [raw_close EDictClose (1 + lens ms) (size ms)]) tail)
  = Ok (inl (DictInvalid (size (prefix fs)))).
Proof.
  intros Hb. cbn [fup close].
  rewrite rd_buf by (symmetry; apply snodes_size). cbn [bind].
  cbn [snodes]. rewrite <- app_assoc. cbn [app].
  rewrite rd_buf by (symmetry; apply snodes_size). cbn [bind members].
  cbn [raw_close n_element n_flags e_flags meta m_flags element set_node f_element e_pair m_pair
         head con_el e_id N.eqb Pos.eqb negb closer bind].
  assert (Hd : forall n, n = (if (f_dict (n_flags (head nid (FDict ms) ms (foff fs) (fpos fs)))) && negb (size ms + 1 =? 3)
     then set_flags (head nid (FDict ms) ms (foff fs) (fpos fs)) (put_dict (n_flags (head nid (FDict ms) ms (foff fs) (fpos fs))) false)
     else head nid (FDict ms) ms (foff fs) (fpos fs)) -> f_dict (n_flags n) = false).
  { intros n ->. rewrite if_dict. cbn [set_flags n_flags head f_dict put_dict con_bound negb andb].
    rewrite dict_len, pair_like_ok. exact Hb. }
  unfold head at 1 2 in Hd. cbn [n_flags f_dict con_bound negb andb] in Hd.
  erewrite Hd by reflexivity. cbn [negb].
  change (n_offset (raw_close EDictClose (1 + lens ms) (size ms))) with (1 + lens ms).
  rewrite strict_sub_ok by (rewrite prefix_foff; cbn [foff members]; lia). cbn [bind].
  f_equal. f_equal. f_equal. rewrite prefix_foff. cbn [foff members]. lia.
Qed.

Lemma node_with_ok fs e :
  size (prefix fs) <= length_max k ->
  node_with k e (foff fs) (fpos fs) = Ok (mkNode (set_node (e_flags e) nid) (foff fs) (fpos fs) 1
                                            (e_dvar_size e) (e_gvar_size e)).
Proof.
  intros H. pose proof (foff_le fs). pose proof (fpos_le fs). unfold node_with.
  rewrite !(proj2 (N.leb_le _ _)) by lia. reflexivity.
Qed.

(** The part of an iteration that is common to all elements. *)
Lemma iteration_common n c fs x tail e :
  c < 128 -> from_code c = Some e -> size (prefix fs) + 1 <= length_max k ->
  let this := mkNode (set_node (e_flags e) nid) (foff fs) (fpos fs) 1 (e_dvar_size e) (e_gvar_size e) in
  let nodes := buf (snodes nid fs ++ [this]) tail in
  iteration k n (size (prefix fs)) c (st fs (x :: tail)) =
  if f_open (e_flags e) then Ok (Go (St 0 (Some (size (prefix fs))) nodes))
  else if f_close (e_flags e) then
    do r <- close k (size (prefix fs)) (fup fs) (fpos fs + 1) nodes;
    match r with
    | inl e => Ok (Fail e)
    | inr (this_idx, o_up_idx, position, nodes) =>
      completed k n (size (prefix fs) + 1) this_idx o_up_idx o_up_idx position nodes
    end
  else completed k n (size (prefix fs) + 1) (size (prefix fs)) (fup fs) (fup fs) (fpos fs + 1) nodes.
Proof.
  intros Hc He Hl this nodes. unfold iteration.
  rewrite (proj2 (N.ltb_lt _ _) Hc). cbn [negb]. rewrite He. cbn [st st_up st_position st_nodes].
  assert (Ho : match fup fs with Some v => strict_sub (size (prefix fs)) v | None => Ok (size (prefix fs)) end
               = Ok (foff fs)).
  { pose proof (fup_foff fs) as F. destruct fs as [|f fs]; [reflexivity|].
    cbn [fup] in *. destruct F as [_ F]. rewrite strict_sub_ok by lia. f_equal. lia. }
  rewrite Ho. cbn [bind]. rewrite node_with_ok by lia. cbn [bind].
  rewrite wr_tail by (symmetry; apply snodes_size). cbn [bind].
  rewrite goto_ok by reflexivity. cbn [bind].
  pose proof (fpos_le fs) as Hp.
  destruct (int_field k wf_kind _ Hl) as [_ [Hi _]].
  rewrite strict_add_ok by lia. cbn [bind].
  rewrite rd_buf by (symmetry; apply snodes_size). cbn [bind n_flags].
  assert (Hfo : f_open (set_node (e_flags e) nid) = f_open (e_flags e)) by (destruct e; reflexivity).
  assert (Hfc : f_close (set_node (e_flags e) nid) = f_close (e_flags e)) by (destruct e; reflexivity).
  rewrite Hfo, Hfc. reflexivity.
Qed.

Lemma open_ok f e fs tail :
  members f = [] -> con_el f = e ->
  St 0 (Some (size (prefix fs)))
    (buf (snodes nid fs ++ [mkNode (set_node (e_flags e) nid) (foff fs) (fpos fs) 1 (e_dvar_size e) (e_gvar_size e)]) tail)
  = st (f :: fs) tail.
Proof. intros H1 H2. destruct f; cbn in H1, H2; subst; reflexivity. Qed.

Ltac close_form f e ms fs tail :=
  match goal with
  | |- context [close ?k ?a ?b ?c ?d] =>
    change (close k a b c d) with
      (close k a b (size ms + 1)
         (buf (snodes (node_id k) (f :: fs) ++ [raw_close e (1 + lens ms) (size ms)]) tail))
  end.

Lemma iteration_ok n c fs x tail :
  size (prefix fs) + 1 <= length_max k ->
  sim (sstep n fs c) tail (iteration k n (size (prefix fs)) c (st fs (x :: tail))).
Proof.
  intros Hl. unfold sstep.
  destruct (N.ltb_spec c 128) as [Hc|Hc]; cbn [negb].
  2:{ unfold iteration. rewrite (proj2 (N.ltb_ge _ _) Hc). reflexivity. }
  destruct (from_code c) as [e|] eqn:He.
  2:{ unfold iteration. rewrite (proj2 (N.ltb_lt _ _) Hc), He. reflexivity. }
  rewrite (iteration_common n c fs x tail e Hc He Hl).
  assert (Simple : forall t,
    root nid t (foff fs) (fpos fs) :: body nid t =
    [mkNode (set_node (e_flags e) nid) (foff fs) (fpos fs) 1 (e_dvar_size e) (e_gvar_size e)] ->
    len t = 1 ->
    sim (scomplete n (size (prefix fs) + 1) fs t) tail
      (completed k n (size (prefix fs) + 1) (size (prefix fs)) (fup fs) (fup fs) (fpos fs + 1)
        (buf (snodes nid fs ++ [mkNode (set_node (e_flags e) nid) (foff fs) (fpos fs) 1 (e_dvar_size e) (e_gvar_size e)]) tail))).
  { intros t Ht Hlen. rewrite <- Ht. apply completed_ok. lia. }
  destruct e;
    try (apply Simple; reflexivity);
    try exact (f_equal (fun s => Ok (Go s)) (open_ok FArray EArray fs tail eq_refl eq_refl));
    try exact (f_equal (fun s => Ok (Go s)) (open_ok FMaybe EMaybe fs tail eq_refl eq_refl));
    try exact (f_equal (fun s => Ok (Go s)) (open_ok (FStruct []) EStructOpen fs tail eq_refl eq_refl));
    try exact (f_equal (fun s => Ok (Go s)) (open_ok (FDict []) EDictOpen fs tail eq_refl eq_refl)).
  - cbn [e_flags meta m_flags element f_open f_close].
    destruct fs as [|f fs]; [reflexivity|].
    assert (Mis : con_el f <> EStructOpen ->
      sim (SFail (ElementMispaired (mispaired_idx f fs) (size (prefix (f :: fs))) (Some EStructOpen))) tail
        (do r <- close k (size (prefix (f :: fs))) (fup (f :: fs)) (fpos (f :: fs) + 1)
           (buf (snodes nid (f :: fs) ++ [raw_close EStructClose (foff (f :: fs)) (fpos (f :: fs))]) tail);
         match r with
         | inl e => Ok (Fail e)
         | inr (this_idx, o_up_idx, position, nodes) =>
           completed k n (size (prefix (f :: fs)) + 1) this_idx o_up_idx o_up_idx position nodes
         end)).
    { intros Hf. rewrite close_mispaired with (e' := EStructOpen); [reflexivity..|].
      destruct f; cbn in *; try discriminate. exfalso; apply Hf; reflexivity. }
    destruct f as [| |ms|ms]; try (apply Mis; discriminate). clear Mis.
    pose proof (prefix_foff (FStruct ms) fs) as Hp. cbn [foff members] in Hp.
    close_form (FStruct ms) (closer (FStruct ms)) ms fs tail.
    rewrite (close_ok (FStruct ms) ms fs (TStruct ms) tail) by
      (try reflexivity; try (left; split; reflexivity); rewrite len_struct; lia).
    cbn [bind]. apply completed_ok. rewrite len_struct. lia.
  - cbn [e_flags meta m_flags element f_open f_close].
    destruct fs as [|f fs]; [reflexivity|].
    assert (Mis : con_el f <> EDictOpen ->
      sim (SFail (ElementMispaired (mispaired_idx f fs) (size (prefix (f :: fs))) (Some EDictOpen))) tail
        (do r <- close k (size (prefix (f :: fs))) (fup (f :: fs)) (fpos (f :: fs) + 1)
           (buf (snodes nid (f :: fs) ++ [raw_close EDictClose (foff (f :: fs)) (fpos (f :: fs))]) tail);
         match r with
         | inl e => Ok (Fail e)
         | inr (this_idx, o_up_idx, position, nodes) =>
           completed k n (size (prefix (f :: fs)) + 1) this_idx o_up_idx o_up_idx position nodes
         end)).
    { intros Hf. rewrite close_mispaired with (e' := EDictOpen); [reflexivity..|].
      destruct f; cbn in *; try discriminate. exfalso; apply Hf; reflexivity. }
    destruct f as [| |ms|ms]; try (apply Mis; discriminate). clear Mis.
    pose proof (prefix_foff (FDict ms) fs) as Hp. cbn [foff members] in Hp.
    close_form (FDict ms) EDictClose ms fs tail.
    destruct (pair_like ms) eqn:Hpl.
    + destruct ms as [|m [|v [|? ?]]]; try discriminate Hpl. destruct m as [b| | | | |]; try discriminate Hpl.
      assert (Hlen : len (TDict b v) = 1 + lens [TBasic b; v] + 1)
        by (rewrite len_dict; cbn [lens]; unfold len at 2; cbn [print]; rewrite size_cons, size_nil; lia).
      change EDictClose with (closer (FDict [TBasic b; v])).
      rewrite (close_ok (FDict [TBasic b; v]) [TBasic b; v] fs (TDict b v) tail) by
        (try reflexivity; try (right; exists b, v; repeat split; reflexivity); rewrite Hlen; lia).
      cbn [bind]. apply completed_ok. rewrite Hlen. lia.
    + rewrite (close_dict_bad ms fs tail Hpl). cbn [bind].
      destruct ms as [|m [|v [|? ?]]]; try reflexivity; destruct m as [b| | | | |]; try reflexivity.
      discriminate Hpl.
Qed.
End K.
