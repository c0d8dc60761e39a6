(** Signatures and cursors over the nodes of a type. *)
From Coq Require Import Ascii.
From Verif Require Import Base DbusSigModel DbusSpec DbusSigAnnot DbusSigProofs DbusSigRefine DbusSigSpec DbusSigTheory.
Local Open Scope N_scope.
Local Open Scope res_scope.

Ltac aa := repeat first [rewrite <- app_assoc | progress (cbn [app])].

Lemma size_prefix_app fs fs' : prefix (fs' ++ fs) = prefix fs ++ prefix fs'.
Proof.
  induction fs' as [|f fs' IH]; [symmetry; apply app_nil_r|].
  cbn [app prefix]. rewrite IH, <- app_assoc. reflexivity.
Qed.
Lemma occurs_trans t fs u fs' w : occurs t fs u -> occurs u fs' w -> occurs t (fs' ++ fs) w.
Proof.
  intros H H'. induction H'; cbn [app].
  - exact H.
  - apply occ_array. exact IHH'.
  - apply occ_maybe. exact IHH'.
  - eapply occ_struct. exact IHH'.
  - eapply occ_key. exact IHH'.
  - eapply occ_value. exact IHH'.
Qed.

(** ** Where the nodes of an occurrence are. *)
Section K.
Context (k : kind).
Notation nid := (node_id k).

Lemma memb_split ms u ms' : forall o p,
  memb nid (body nid) o p (ms ++ u :: ms') =
  memb nid (body nid) o p ms ++ cont nid u (o + lens ms) (p + size ms) :: body nid u
    ++ memb nid (body nid) (o + lens ms + len u) (p + size ms + 1) ms'.
Proof.
  induction ms as [|m ms IH]; intros o p; cbn [app memb].
  - change (lens []) with 0. change (size (@nil ty)) with 0. rewrite !N.add_0_r. reflexivity.
  - rewrite IH, lens_cons, size_cons, !N.add_assoc, <- !app_assoc. reflexivity.
Qed.

Lemma occ_nodes t fs u r : occurs t fs u ->
  exists X r' Y, r :: body nid t = X ++ r' :: body nid u ++ Y /\ size X = size (prefix fs) /\
    match fs with [] => r' = r /\ u = t /\ Y = [] | _ => r' = cont nid u (foff fs) (fpos fs) end.
Proof.
  induction 1 as [|fs u H IH|fs u H IH|fs ms u ms' H IH|fs kb v H IH|fs kb v H IH].
  - exists [], r, []. rewrite app_nil_r. repeat split.
  - destruct IH as [X [r' [Y [E [S _]]]]].
    exists (X ++ [r']), (cont nid u 1 0), Y. split; [|split; [|reflexivity]].
    + rewrite E. cbn [body]. rewrite <- app_assoc. reflexivity.
    + rewrite size_app, prefix_cons, S, size_cons. change (size (@nil Node)) with 0. cbn [members lens]. lia.
  - destruct IH as [X [r' [Y [E [S _]]]]].
    exists (X ++ [r']), (cont nid u 1 0), Y. split; [|split; [|reflexivity]].
    + rewrite E. cbn [body]. rewrite <- app_assoc. reflexivity.
    + rewrite size_app, prefix_cons, S, size_cons. change (size (@nil Node)) with 0. cbn [members lens]. lia.
  - destruct IH as [X [r' [Y [E [S _]]]]].
    exists (X ++ r' :: memb nid (body nid) 1 0 ms), (cont nid u (1 + lens ms) (0 + size ms)).
    eexists. split; [|split; [|reflexivity]].
    + rewrite E. cbn [body]. rewrite memb_split. aa. reflexivity.
    + rewrite size_app, prefix_cons, S, size_cons, memb_size. cbn [members]. lia.
  - destruct IH as [X [r' [Y [E [S _]]]]].
    exists (X ++ [r']), (cont nid (TBasic kb) 1 0). eexists. split; [|split; [|reflexivity]].
    + rewrite E. cbn [body app]. aa. reflexivity.
    + rewrite size_app, prefix_cons, S, size_cons. change (size (@nil Node)) with 0. cbn [members lens]. lia.
  - destruct IH as [X [r' [Y [E [S _]]]]].
    exists (X ++ [r'; cont nid (TBasic kb) 1 0]), (cont nid v 2 1). eexists. split; [|split; [|reflexivity]].
    + rewrite E. cbn [body app]. aa. cbn [app]. reflexivity.
    + rewrite size_app, prefix_cons, S, !size_cons. change (size (@nil Node)) with 0. cbn [members lens].
      change (len (TBasic kb)) with 1. lia.
Qed.
End K.

(** Texts of occurrences. *)
Lemma occ_text t fs u : occurs t fs u -> exists rest, print t = prefix fs ++ print u ++ rest.
Proof.
  induction 1 as [|fs u H IH|fs u H IH|fs ms u ms' H IH|fs kb v H IH|fs kb v H IH];
    [exists []; rewrite app_nil_r; reflexivity|..]; destruct IH as [rest IH]; rewrite IH;
    cbn [prefix members flat_map opening print].
  - exists rest. rewrite <- app_assoc. reflexivity.
  - exists rest. rewrite <- app_assoc. reflexivity.
  - rewrite flat_map_app. cbn [flat_map]. eexists. aa. reflexivity.
  - eexists. rewrite <- !app_assoc. cbn [app]. reflexivity.
  - eexists. aa. reflexivity.
Qed.
Lemma occ_bound t fs u : occurs t fs u -> size (prefix fs) + len u <= len t.
Proof.
  intros H. destruct (occ_text _ _ _ H) as [rest E]. unfold len. rewrite E, !size_app. lia.
Qed.

Definition unbound (t : ty) : Prop := match t with TStruct _ | TDict _ _ => True | _ => False end.
(** Every index is the start of an occurrence or the closing of one. *)
Lemma occ_total t : forall i, i < len t ->
  exists fs u, occurs t fs u /\
    (i = size (prefix fs) \/ unbound u /\ i + 1 = size (prefix fs) + len u).
Proof.
  induction t as [b| |t IH|t IH|ms IH|kb v IH] using ty_rect'; intros i Hi.
  - exists [], (TBasic b). split; [constructor|]. left. unfold len in Hi. cbn in *. lia.
  - exists [], TVariant. split; [constructor|]. left. unfold len in Hi. cbn in *. lia.
  - destruct (N.eq_dec i 0) as [->|Hn]; [exists [], (TArray t); split; [constructor|left; reflexivity]|].
    rewrite len_array in Hi. destruct (IH (i - 1) ltac:(lia)) as [fs [u [O H]]].
    exists (fs ++ [FArray]), u. split; [eapply occurs_trans; [apply occ_array, occ_root|exact O]|].
    rewrite size_prefix_app, size_app. change (size (prefix [FArray])) with 1. 
    destruct H as [H|[U H]]; [left|right; split; [exact U|]]; lia.
  - destruct (N.eq_dec i 0) as [->|Hn]; [exists [], (TMaybe t); split; [constructor|left; reflexivity]|].
    rewrite len_maybe in Hi. destruct (IH (i - 1) ltac:(lia)) as [fs [u [O H]]].
    exists (fs ++ [FMaybe]), u. split; [eapply occurs_trans; [apply occ_maybe, occ_root|exact O]|].
    rewrite size_prefix_app, size_app. change (size (prefix [FMaybe])) with 1.
    destruct H as [H|[U H]]; [left|right; split; [exact U|]]; lia.
  - destruct (N.eq_dec i 0) as [->|Hn]; [exists [], (TStruct ms); split; [constructor|left; reflexivity]|].
    rewrite len_struct in Hi.
    destruct (N.eq_dec i (1 + lens ms)) as [E|E].
    { exists [], (TStruct ms). split; [constructor|]. right. split; [exact I|]. rewrite len_struct.
      change (size (prefix [])) with 0. lia. }
    assert (G : exists pre m post j, ms = pre ++ m :: post /\ i = 1 + lens pre + j /\ j < len m).
    { assert (Hj : i - 1 < lens ms) by lia. clear - Hj Hn.
      assert (G : forall l j, j < lens l -> exists pre m post j', l = pre ++ m :: post /\ j = lens pre + j' /\ j' < len m).
      { induction l as [|m ms' IH]; intros j Hl; [cbn [lens] in Hl; lia|].
        rewrite lens_cons in Hl. destruct (N.lt_ge_cases j (len m)) as [L|L].
        - exists [], m, ms', j. change (lens []) with 0. split; [reflexivity|lia].
        - destruct (IH (j - len m) ltac:(lia)) as [pre [m' [post [j' [E1 [E2 E3]]]]]].
          exists (m :: pre), m', post, j'. subst ms'. split; [reflexivity|]. rewrite lens_cons. lia. }
      destruct (G ms (i - 1) Hj) as [pre [m [post [j [E1 [E2 E3]]]]]].
      exists pre, m, post, j. split; [exact E1|lia]. }
    destruct G as [pre [m [post [j [-> [E2 E3]]]]]].
    apply Forall_app in IH. destruct IH as [_ IH]. inversion IH as [|x l Hm _]; subst x l.
    destruct (Hm j E3) as [fs [u [O H]]].
    exists (fs ++ [FStruct pre]), u.
    split; [eapply occurs_trans; [eapply occ_struct, occ_root|exact O]|].
    rewrite size_prefix_app, size_app, (prefix_cons (FStruct pre) []). change (size (prefix [])) with 0. cbn [members].
    destruct H as [H|[U H]]; [left|right; split; [exact U|]]; lia.
  - destruct (N.eq_dec i 0) as [->|Hn]; [exists [], (TDict kb v); split; [constructor|left; reflexivity]|].
    rewrite len_dict in Hi.
    destruct (N.eq_dec i 1) as [->|Hn1].
    { exists [FDict []], (TBasic kb). split; [eapply occ_key, occ_root|left; reflexivity]. }
    destruct (N.eq_dec i (2 + len v)) as [E|E].
    { exists [], (TDict kb v). split; [constructor|]. right. split; [exact I|]. rewrite len_dict.
      change (size (prefix [])) with 0. lia. }
    destruct (IH (i - 2) ltac:(lia)) as [fs [u [O H]]].
    exists (fs ++ [FDict [TBasic kb]]), u.
    split; [eapply occurs_trans; [eapply occ_value, occ_root|exact O]|].
    rewrite size_prefix_app, size_app. change (size (prefix [FDict [TBasic kb]])) with 2.
    destruct H as [H|[U H]]; [left|right; split; [exact U|]]; lia.
Qed.

(** ** Signatures of a type. *)
Definition rootlike (k : kind) (t : ty) (r : Node) : Prop :=
  exists o p, r = root (node_id k) t o p \/ r = cont (node_id k) t o p.
Inductive is_sig (t : ty) (s : Sig) : Prop :=
| is_sig_intro k r :
    (k = node8 \/ k = node64) -> rootlike k t r ->
    s = mkSig k (map Some (r :: body (node_id k) t)) -> is_sig t s.

Record obs (n : Node) (t : ty) (nid : N) : Prop := {
  o_el : n_element n = ty_el t;
  o_node : f_node (n_flags n) = nid;
  o_len : n_length n = len t;
  o_dva : f_dvar_alignment_exp (n_flags n) = dvar_align t;
  o_gva : f_gvar_alignment_exp (n_flags n) = gvar_align t;
  o_prefix : f_prefix (n_flags n) = true;
  o_open : f_open (n_flags n) = is_container t;
  o_close : f_close (n_flags n) = false;
  o_basic : f_basic (n_flags n) = is_basic t;
  o_dyn : f_dynamic (n_flags n) = dynamic t;
  o_var : f_variant (n_flags n) = is_variant t;
  o_han : f_handle (n_flags n) = r_han t;
  o_dict : f_dict (n_flags n) = r_dict t;
  o_uns : f_dvar_unsupported (n_flags n) = r_uns t;
  o_dsz : n_dvar_size n = dvar_size t;
  o_gsz : n_gvar_size n = gvar_end t;
}.
Lemma rootlike_obs k t r : rootlike k t r -> obs r t (node_id k).
Proof.
  intros [o [p [-> | ->]]]; [split; reflexivity|].
  unfold cont. cbv zeta. rewrite if_mis. split; reflexivity.
Qed.
Lemma cont_off k t o p : n_offset (cont (node_id k) t o p) = o /\ n_position (cont (node_id k) t o p) = p.
Proof. unfold cont. cbv zeta. rewrite if_mis. split; reflexivity. Qed.

Lemma map_nth_some {A} (l : list A) i : nth_error (map Some l) i = option_map Some (nth_error l i).
Proof. revert i; induction l as [|a l IH]; intros [|i]; cbn; try reflexivity. apply IH. Qed.
Lemma rd_map l i : rd (map Some l) i = match nth_error l (N.to_nat i) with Some n => Ok n | None => Panic end.
Proof. unfold rd. rewrite map_nth_some. destruct (nth_error l (N.to_nat i)); reflexivity. Qed.

Section Sig.
Context (k : kind) (Hk : k = node8 \/ k = node64) (t : ty) (r : Node) (Hr : rootlike k t r).
Notation nid := (node_id k).
Let ns := r :: body nid t.
Let s := mkSig k (map Some ns).

Lemma ns_size : size ns = len t.
Proof. unfold ns. rewrite size_cons. apply body_size. Qed.
Lemma kind_ok : sig_kind s = Ok k.
Proof.
  unfold sig_kind, sig_flags, s. cbn [s_nodes s_kind]. rewrite rd_map. cbn [nth_error N.to_nat bind ns].
  rewrite (o_node _ _ _ (rootlike_obs _ _ _ Hr)). destruct Hk as [-> | ->]; reflexivity.
Qed.
Lemma words_ok : words s = len t * size_coeff k.
Proof. unfold words, s. cbn [s_nodes s_kind]. rewrite map_length. fold (size ns). rewrite ns_size. reflexivity. Qed.
Lemma len_ok : sig_len s = Ok (len t * size_coeff k).
Proof.
  unfold sig_len. rewrite kind_ok, words_ok. cbn [bind]. change (size_coeff node8) with 1. rewrite N.div_1_r.
  destruct (node_id k =? node_id node8); reflexivity.
Qed.
Lemma node_at_ok idx : node_at s idx = Ok (nth_error ns (N.to_nat idx)).
Proof.
  unfold node_at. rewrite kind_ok, words_ok. cbn [bind].
  rewrite N.div_mul by (destruct Hk as [-> | ->]; discriminate).
  pose proof ns_size as Hs. unfold size in Hs.
  destruct (N.ltb_spec idx (len t)) as [L|L].
  - unfold s. cbn [s_nodes]. rewrite rd_map.
    destruct (nth_error ns (N.to_nat idx)) eqn:E; [reflexivity|].
    apply nth_error_None in E. lia.
  - symmetry. f_equal. apply nth_error_None. lia.
Qed.

Lemma nth_mid {A} (X : list A) y Z i : i = size X -> nth_error (X ++ y :: Z) (N.to_nat i) = Some y.
Proof.
  intros ->. rewrite nth_error_app2 by (unfold size; lia).
  replace (N.to_nat (size X) - length X)%nat with 0%nat by (unfold size; lia). reflexivity.
Qed.

Lemma node_start fs u : occurs t fs u ->
  exists n, node_at s (size (prefix fs)) = Ok (Some n) /\ rootlike k u n /\
    (fs <> [] -> n_offset n = foff fs /\ n_position n = fpos fs).
Proof.
  intros H. destruct (occ_nodes k t fs u r H) as [X [r' [Y [E [S F]]]]].
  exists r'. rewrite node_at_ok. unfold ns. rewrite E, nth_mid by (symmetry; exact S).
  split; [reflexivity|]. destruct fs as [|f fs].
  - destruct F as [-> [-> ->]]. split; [exact Hr|congruence].
  - rewrite F. split; [exists (foff (f :: fs)), (fpos (f :: fs)); right; reflexivity|].
    intros _. apply cont_off.
Qed.
Definition ty_members (u : ty) : list ty :=
  match u with TStruct ms => ms | TDict kb v => [TBasic kb; v] | TArray u | TMaybe u => [u] | _ => [] end.
Definition ty_closer (u : ty) : Element := match u with TStruct _ => EStructClose | _ => EDictClose end.
Lemma body_close u : unbound u -> exists B, body nid u = B ++ [close_node nid (ty_closer u) (ty_members u)].
Proof.
  destruct u as [| | | |ms|kb v]; intros []; cbn [body ty_closer ty_members].
  - eexists. reflexivity.
  - exists (cont nid (TBasic kb) 1 0 :: cont nid v 2 1 :: body nid v). reflexivity.
Qed.
Lemma node_close fs u : occurs t fs u -> unbound u ->
  node_at s (size (prefix fs) + len u - 1) = Ok (Some (close_node nid (ty_closer u) (ty_members u))).
Proof.
  intros H U. destruct (occ_nodes k t fs u r H) as [X [r' [Y [E [S F]]]]].
  destruct (body_close u U) as [B HB]. pose proof (body_size nid u) as HS.
  rewrite HB, size_app, size_cons in HS. change (size (@nil Node)) with 0 in HS.
  rewrite node_at_ok. unfold ns. rewrite E, HB.
  replace (X ++ r' :: (B ++ [close_node nid (ty_closer u) (ty_members u)]) ++ Y)
    with ((X ++ r' :: B) ++ close_node nid (ty_closer u) (ty_members u) :: Y)
    by (aa; reflexivity).
  rewrite nth_mid; [reflexivity|]. rewrite size_app, size_cons. lia.
Qed.
Lemma node_past idx : len t <= idx -> node_at s idx = Ok None.
Proof.
  intros H. rewrite node_at_ok. f_equal. apply nth_error_None. pose proof ns_size as Hs. unfold size in Hs. lia.
Qed.

(** The element of every index is that of the text. *)
Lemma codes_body u : map (fun n => e_code (n_element n)) (body nid u) = tl (print u).
Proof.
  assert (C : forall v o p, e_code (n_element (cont nid v o p)) = hd 0 (print v)).
  { intros v o p. rewrite (o_el _ _ _ (rootlike_obs k v _ (ex_intro _ o (ex_intro _ p (or_intror eq_refl))))).
    destruct v as [b| | | | |]; try reflexivity. destruct b; reflexivity. }
  assert (Hd : forall v, hd 0 (print v) :: tl (print v) = print v) by (intros []; reflexivity).
  induction u as [b| |u IH|u IH|ms IH|kb v IH] using ty_rect'; cbn [body print tl]; try reflexivity.
  - cbn [map]. rewrite C, IH, Hd. reflexivity.
  - cbn [map]. rewrite C, IH, Hd. reflexivity.
  - rewrite map_app. f_equal. generalize 1 at 1, 0 at 1.
    induction IH as [|m ms Hm F IH']; intros o p; [reflexivity|].
    cbn [memb flat_map]. rewrite map_app. cbn [map]. rewrite C, Hm, Hd. rewrite IH'. reflexivity.
  - cbn [map]. rewrite C, map_app, IH, C. cbn [map].
    rewrite app_comm_cons, Hd. reflexivity.
Qed.
Lemma codes_ns : map (fun n => e_code (n_element n)) ns = print t.
Proof.
  unfold ns. cbn [map]. rewrite codes_body, (o_el _ _ _ (rootlike_obs _ _ _ Hr)).
  destruct t as [b| | | | |]; try reflexivity. destruct b; reflexivity.
Qed.

(** Iterating yields the elements in order. *)
Lemma collect_ok fuel : forall i, (fuel > length ns - N.to_nat i)%nat ->
  collect fuel (mkCursor s i) = Ok (map n_element (skipn (N.to_nat i) ns)).
Proof.
  induction fuel as [|fuel IH]; intros i Hf; [lia|].
  cbn [collect]. unfold iter_next, c_element, element_at, mapr, do_move. cbn [c_sig c_idx idx_of].
  rewrite node_at_ok. cbn [bind]. unfold idx_next. cbn [c_sig c_idx]. rewrite len_ok. cbn [bind].
  destruct (nth_error ns (N.to_nat i)) as [n|] eqn:E; cbn [option_map].
  - assert (L : (N.to_nat i < length ns)%nat) by (apply nth_error_Some; congruence).
    pose proof ns_size as Hs. unfold size in Hs.
    assert (Hc : 1 <= size_coeff k) by (destruct Hk as [-> | ->]; cbn; lia).
    rewrite (proj2 (N.ltb_lt i (len t * size_coeff k))) by nia. cbn [maybe_move move_to c_sig bind].
    unfold move_to. cbn [c_sig]. rewrite IH by lia. cbn [bind]. f_equal.
    replace (N.to_nat (i + 1)) with (S (N.to_nat i)) by lia.
    clear - E L. revert E L. generalize (N.to_nat i). clear i. generalize ns. clear.
    induction ns as [|a l IH]; intros [|j] E L; cbn in *; try lia.
    + injection E as ->. reflexivity.
    + apply IH; [exact E|lia].
  - apply nth_error_None in E. rewrite skipn_all2 by exact E. 
    destruct (i <? len t * size_coeff k); reflexivity.
Qed.
Lemma elements_ok : sig_elements s = Ok (map n_element ns).
Proof.
  unfold sig_elements, cursor, cursor_with. rewrite len_ok. cbn [bind].
  assert (H : (if 0 <? len t * size_coeff k then 0 else len t * size_coeff k) = 0)
    by (destruct (N.ltb_spec 0 (len t * size_coeff k)); lia).
  rewrite H. rewrite collect_ok; [reflexivity|]. unfold s. cbn [s_nodes]. rewrite map_length. lia.
Qed.
Lemma to_string_ok : sig_to_string s = Ok (print t).
Proof. unfold sig_to_string. rewrite elements_ok. cbn [bind]. rewrite map_map, codes_ns. reflexivity. Qed.

(** Sub-signatures. *)
Lemma at_start fs u : occurs t fs u ->
  exists s', sig_at s (size (prefix fs)) = Ok (Some s') /\ is_sig u s' /\ s_kind s' = k.
Proof.
  intros H. destruct (node_start fs u H) as [n [E [R _]]].
  pose proof (rootlike_obs _ _ _ R) as O.
  destruct (occ_nodes k t fs u r H) as [X [r' [Y [EN [S F]]]]].
  assert (En : n = r').
  { rewrite node_at_ok in E. unfold ns in E. rewrite EN, nth_mid in E by (symmetry; exact S). congruence. }
  subst r'.
  unfold sig_at. rewrite E. cbn [bind]. rewrite (o_prefix _ _ _ O). cbn [negb].
  pose proof (occ_bound t fs u H) as HB.
  assert (Hl : N.of_nat (length (s_nodes s)) = len t).
  { unfold s. cbn [s_nodes]. rewrite map_length. apply ns_size. }
  rewrite Hl, (o_len _ _ _ O). rewrite !(proj2 (N.leb_le _ _)) by lia.
  eexists. split; [reflexivity|]. split; [|reflexivity].
  apply is_sig_intro with k n; [exact Hk|exact R|].
  unfold s. cbn [s_nodes s_kind]. f_equal. rewrite skipn_map, firstn_map. f_equal.
  unfold ns. rewrite EN. 
  replace (N.to_nat (size (prefix fs))) with (length X) by (rewrite <- S; unfold size; lia).
  rewrite skipn_app, skipn_all2, Nat.sub_diag by lia. cbn [app skipn].
  replace (N.to_nat (len u)) with (length (n :: body nid u))
    by (rewrite <- (body_size nid u); unfold size; cbn [length]; lia).
  rewrite app_comm_cons, firstn_app, Nat.sub_diag, firstn_all. cbn [firstn]. apply app_nil_r.
Qed.
Lemma at_close fs u : occurs t fs u -> unbound u -> sig_at s (size (prefix fs) + len u - 1) = Ok None.
Proof.
  intros H U. unfold sig_at. rewrite (node_close fs u H U). cbn [bind].
  destruct u; try destruct U; reflexivity.
Qed.
Lemma at_past idx : len t <= idx -> sig_at s idx = Ok None.
Proof. intros H. unfold sig_at. rewrite (node_past idx H). reflexivity. Qed.
End Sig.
