(** The signature parser refines the abstract stack machine. *)
From Verif Require Import Base DbusSigModel DbusSpec DbusSigAnnot.
Local Open Scope N_scope.
Local Open Scope res_scope.

(** ** Lists and buffers. *)
Lemma size_app {A} (a b : list A) : size (a ++ b) = size a + size b.
Proof. unfold size. rewrite app_length. lia. Qed.
Lemma size_cons {A} (x : A) l : size (x :: l) = 1 + size l.
Proof. unfold size. cbn [length]. lia. Qed.
Lemma size_nil {A} : size (@nil A) = 0.
Proof. reflexivity. Qed.

Lemma flat_map_size ms : size (flat_map print ms) = lens ms.
Proof. induction ms as [|m ms IH]; [reflexivity|]. cbn [flat_map lens]. rewrite size_app, IH. reflexivity. Qed.
Lemma lens_app a b : lens (a ++ b) = lens a + lens b.
Proof. induction a as [|m a IH]; cbn [app lens]; [lia|]. rewrite IH. lia. Qed.
Lemma lens1 t : lens [t] = len t.
Proof. unfold lens. cbn. lia. Qed.
Lemma lens_cons t ms : lens (t :: ms) = len t + lens ms.
Proof. reflexivity. Qed.

Definition buf (ns : list Node) (tail : buffer) : buffer := map Some ns ++ tail.

Lemma rd_buf a n b tail i : i = size a -> rd (buf (a ++ n :: b) tail) i = Ok n.
Proof.
  intros ->. unfold rd, buf. rewrite map_app, <- app_assoc, nth_error_app2
    by (rewrite map_length; unfold size; lia).
  rewrite map_length. replace (N.to_nat (size a) - length a)%nat with 0%nat by (unfold size; lia).
  reflexivity.
Qed.
Lemma wr_buf a n b tail i m : i = size a ->
  wr (buf (a ++ n :: b) tail) i m = Ok (buf (a ++ m :: b) tail).
Proof.
  intros ->. unfold wr, buf.
  replace (size a <? N.of_nat (length (map Some (a ++ n :: b) ++ tail))) with true.
  2:{ symmetry. apply N.ltb_lt. rewrite app_length, map_length, app_length. cbn [length]. unfold size. lia. }
  f_equal. rewrite !map_app, <- !app_assoc. cbn [map app]. unfold upd.
  rewrite firstn_app, skipn_app, map_length.
  replace (N.to_nat (size a) - length a)%nat with 0%nat by (unfold size; lia).
  replace (S (N.to_nat (size a)) - length a)%nat with 1%nat by (unfold size; lia).
  rewrite firstn_all2, skipn_all2 by (rewrite map_length; unfold size; lia).
  cbn [firstn skipn app]. rewrite app_nil_r. reflexivity.
Qed.
Lemma wr_tail ns x tail i n : i = size ns ->
  wr (buf ns (x :: tail)) i n = Ok (buf (ns ++ [n]) tail).
Proof.
  intros ->. unfold wr, buf.
  replace (size ns <? N.of_nat (length (map Some ns ++ x :: tail))) with true.
  2:{ symmetry. apply N.ltb_lt. rewrite app_length, map_length. cbn [length]. unfold size. lia. }
  f_equal. unfold upd. rewrite firstn_app, skipn_app, map_length.
  replace (N.to_nat (size ns) - length ns)%nat with 0%nat by (unfold size; lia).
  replace (S (N.to_nat (size ns)) - length ns)%nat with 1%nat by (unfold size; lia).
  rewrite firstn_all2, skipn_all2 by (rewrite map_length; unfold size; lia).
  cbn [firstn skipn app]. rewrite app_nil_r, map_app, <- app_assoc. reflexivity.
Qed.
Lemma wr_none ns i n : i = size ns -> wr (buf ns []) i n = Panic.
Proof.
  intros ->. unfold wr, buf. rewrite app_nil_r, map_length. unfold size. rewrite N.ltb_irrefl. reflexivity.
Qed.

(** ** Lengths of annotations. *)
Lemma len_pos t : 1 <= len t.
Proof. destruct t; unfold len; cbn [print]; rewrite size_cons; lia. Qed.

Lemma prefix_cons f fs :
  size (prefix (f :: fs)) = size (prefix fs) + 1 + lens (members f).
Proof. cbn [prefix]. rewrite size_app, size_cons, flat_map_size. lia. Qed.
Lemma prefix_foff f fs : size (prefix (f :: fs)) = size (prefix fs) + foff (f :: fs).
Proof. rewrite prefix_cons. cbn [foff]. lia. Qed.
Lemma frames_le fs : size fs <= size (prefix fs).
Proof. induction fs as [|f fs IH]; [reflexivity|]. rewrite prefix_cons, size_cons. lia. Qed.
Lemma members_le ms : size ms <= lens ms.
Proof.
  induction ms as [|m ms IH]; [reflexivity|]. rewrite lens_cons, size_cons. pose proof (len_pos m). lia.
Qed.
Lemma fpos_le fs : fpos fs <= size (prefix fs).
Proof.
  destruct fs as [|f fs]; [reflexivity|]. rewrite prefix_cons. cbn [fpos].
  pose proof (members_le (members f)). lia.
Qed.
Lemma foff_le fs : foff fs <= size (prefix fs).
Proof. destruct fs as [|f fs]; [reflexivity|]. rewrite prefix_foff. lia. Qed.

Lemma dvar_align_le t : dvar_align t <= 3.
Proof. destruct t as [b| | | | |]; try destruct b; cbn; lia. Qed.
Lemma gvar_align_le t : gvar_align t <= 3.
Proof.
  induction t as [b| |t IH|t IH|ms IH|kb v IH] using ty_rect'; cbn [gvar_align]; try lia.
  - destruct b; cbn; lia.
  - assert (G : forall a, a <= 3 -> fold_left (fun a m => N.max a (gvar_align m)) ms a <= 3).
    { induction IH as [|m ms H IH IH']; intros a Ha; [exact Ha|]. cbn [fold_left]. apply IH'. lia. }
    apply G. lia.
  - destruct kb; cbn; lia.
Qed.
Lemma pad_to_le m n b : m <> 0 -> n <= b -> b mod m = 0 -> pad_to m n <= b.
Proof.
  intros Hm Hn Hb. unfold pad_to.
  apply N.div_exact in Hb; [|exact Hm].
  assert ((n + m - 1) / m <= b / m).
  { apply N.lt_succ_r. apply N.div_lt_upper_bound; [exact Hm|]. lia. }
  rewrite Hb, (N.mul_comm m). apply N.mul_le_mono_r. exact H.
Qed.
Lemma strict_sub_ok a b : b <= a -> strict_sub a b = Ok (a - b).
Proof. intros H. unfold strict_sub. rewrite (proj2 (N.leb_le _ _) H). reflexivity. Qed.

Lemma pow_align a : a <= 3 -> 2 ^ a <> 0 /\ forall n, (8 * n) mod 2 ^ a = 0.
Proof.
  intros H. split; [apply N.pow_nonzero; discriminate|].
  intros n. replace (8 * n) with (n * 2 ^ (3 - a) * 2 ^ a).
  - apply N.mod_mul, N.pow_nonzero. discriminate.
  - rewrite <- N.mul_assoc, <- N.pow_add_r. replace (3 - a + a) with 3 by lia. change (2 ^ 3) with 8. lia.
Qed.

Section Sizes.
Context (al sz : ty -> N) (Hal : forall t, al t <= 3).
Definition fold_size (ms : list ty) (n : N) : N :=
  fold_left (fun n m => pad_to (2 ^ al m) n + sz m) ms n.
Lemma fold_size_le ms : Forall (fun m => sz m <= 8 * len m) ms ->
  forall n b, n <= 8 * b -> fold_size ms n <= 8 * (b + lens ms).
Proof.
  induction 1 as [|m ms H F IH]; intros n b Hn; cbn [fold_size fold_left lens].
  - rewrite N.add_0_r. exact Hn.
  - rewrite N.add_assoc. apply IH. destruct (pow_align (al m) (Hal m)) as [Z M].
    pose proof (pad_to_le _ n (8 * b) Z Hn (M b)). lia.
Qed.
End Sizes.
Lemma dvar_size_le t : dvar_size t <= 8 * len t.
Proof.
  induction t as [b| |t IH|t IH|ms IH|kb v IH] using ty_rect'; cbn [dvar_size]; try lia.
  - destruct b; cbn; lia.
  - pose proof (fold_size_le dvar_align dvar_size dvar_align_le ms IH 0 0) as G.
    unfold len. cbn [print]. rewrite size_cons, size_app, flat_map_size. unfold fold_size in G. lia.
  - unfold len in *. cbn [print]. rewrite !size_cons, size_app.
    destruct (pow_align (dvar_align v) (dvar_align_le v)) as [Z M].
    pose proof (pad_to_le _ (basic_dvar_size kb) (8 * 1) Z ltac:(destruct kb; cbn; lia) (M 1)). lia.
Qed.
Lemma gvar_end_le t : gvar_end t <= 8 * len t.
Proof.
  induction t as [b| |t IH|t IH|ms IH|kb v IH] using ty_rect'; cbn [gvar_end]; try lia.
  - destruct b; cbn; lia.
  - pose proof (fold_size_le gvar_align gvar_end gvar_align_le ms IH 0 0) as G.
    unfold len. cbn [print]. rewrite size_cons, size_app, flat_map_size. unfold fold_size in G. lia.
  - unfold len in *. cbn [print]. rewrite !size_cons, size_app.
    destruct (pow_align (gvar_align v) (gvar_align_le v)) as [Z M].
    pose proof (pad_to_le _ (basic_gvar_size kb) (8 * 1) Z ltac:(destruct kb; cbn; lia) (M 1)). lia.
Qed.

Lemma if_mis (c v : bool) n :
  (if c then set_flags n (put_misaligned (n_flags n) v) else n) =
  set_flags n (put_misaligned (n_flags n) (if c then v else f_dvar_misaligned (n_flags n))).
Proof. destruct n as [[] ? ? ? ? ?], c; reflexivity. Qed.
Lemma if_gva (c : bool) v n :
  (if c then set_flags n (set_gvar_alignment_exp (n_flags n) v) else n) =
  set_flags n (set_gvar_alignment_exp (n_flags n) (if c then v else f_gvar_alignment_exp (n_flags n))).
Proof. destruct n as [[] ? ? ? ? ?], c; reflexivity. Qed.
Lemma if_dict (c v : bool) n :
  (if c then set_flags n (put_dict (n_flags n) v) else n) =
  set_flags n (put_dict (n_flags n) (if c then v else f_dict (n_flags n))).
Proof. destruct n as [[] ? ? ? ? ?], c; reflexivity. Qed.


Section Nid.
Context (nid : N).
Lemma body_size t : 1 + size (body nid t) = len t.
Proof.
  induction t as [b| |t IH|t IH|ms IH|kb v IH] using ty_rect'; cbn [body];
    try reflexivity.
  - rewrite size_cons, IH. unfold len. cbn [print]. rewrite size_cons. reflexivity.
  - rewrite size_cons, IH. unfold len. cbn [print]. rewrite size_cons. reflexivity.
  - unfold len. cbn [print]. rewrite size_cons, !size_app, flat_map_size, !size_cons.
    cbn [size length]. f_equal. f_equal.
    generalize 1 at 1. generalize 0.
    induction IH as [|m ms H IH IH']; intros p o; [reflexivity|].
    cbn [memb]. rewrite size_app, size_cons, H. rewrite IH', lens_cons. reflexivity.
  - unfold len. cbn [print]. rewrite !size_cons, !size_app. unfold len in IH.
    rewrite !size_cons. change (size (@nil N)) with 0. change (size (@nil Node)) with 0. lia.
Qed.
Lemma memb_size ms : forall o p, size (memb nid (body nid) o p ms) = lens ms.
Proof.
  induction ms as [|m ms IH]; intros o p; [reflexivity|].
  cbn [memb]. rewrite size_app, size_cons, body_size, IH. reflexivity.
Qed.
Lemma memb_app ms t : forall o p,
  memb nid (body nid) o p (ms ++ [t]) =
  memb nid (body nid) o p ms ++ cont nid t (o + lens ms) (p + size ms) :: body nid t.
Proof.
  induction ms as [|m ms IH]; intros o p; cbn [app memb].
  - cbn. rewrite !N.add_0_r, app_nil_r. reflexivity.
  - rewrite IH, lens_cons, size_cons. rewrite !N.add_assoc, <- !app_assoc. reflexivity.
Qed.
Lemma snodes_size fs : size (snodes nid fs) = size (prefix fs).
Proof.
  induction fs as [|f fs IH]; [reflexivity|].
  rewrite prefix_cons. cbn [snodes]. rewrite size_app, size_cons, memb_size, IH. lia.
Qed.
End Nid.

Section K.
Context (k : kind).
Hypothesis wf_kind : length_max k <= field_max k.
Notation nid := (node_id k).

(** ** Sizes stay within the integer type. *)
Lemma next_multiple_of_ok a m : m <> 0 -> pad_to m a <= int_max k ->
  next_multiple_of k a m = Ok (pad_to m a).
Proof.
  intros Hm Hle. unfold next_multiple_of.
  assert (E : (if a mod m =? 0 then a else a + (m - a mod m)) = pad_to m a).
  { unfold pad_to. pose proof (N.div_mod a m Hm) as D. pose proof (N.mod_upper_bound a m Hm) as U.
    destruct (N.eqb_spec (a mod m) 0) as [Z|Z].
    - replace ((a + m - 1) / m) with (a / m); [lia|].
      apply N.div_unique with (m - 1); lia.
    - replace ((a + m - 1) / m) with (a / m + 1); [lia|].
      apply N.div_unique with (a mod m - 1); lia. }
  rewrite E. rewrite (proj2 (N.leb_le _ _) Hle). reflexivity.
Qed.
Lemma strict_add_ok a b : a + b <= int_max k -> strict_add k a b = Ok (a + b).
Proof. intros H. unfold strict_add. rewrite (proj2 (N.leb_le _ _) H). reflexivity. Qed.
(** ** A container absorbs a member. *)
Definition heads (f : frame) (ms : list ty) (d g : N) (off pos : N) : Node :=
  set_sizes (head nid f ms off pos) d g.

Lemma int_field v : v <= length_max k -> v <= field_max k /\ v <= int_max k /\ 8 * v <= int_max k.
Proof.
  intros H. split; [lia|]. unfold length_max in H.
  pose proof (N.mul_div_le (int_max k) 8 ltac:(discriminate)). lia.
Qed.

Lemma merge_ok f ms t off pos o :
  1 + lens ms + len t <= length_max k ->
  merge k (root nid t o (size ms)) (head nid f ms off pos) =
  Ok (cont nid t o (size ms),
      heads f (ms ++ [t]) (n_dvar_size (head nid f ms off pos)) (n_gvar_size (head nid f ms off pos)) off pos).
Proof.
  intros H. destruct (int_field _ H) as [Hf [Hi _]].
  unfold merge. cbn [head n_length root].
  rewrite strict_add_ok by exact Hi. cbn [bind]. unfold set_length.
  rewrite (proj2 (N.leb_le _ _) Hf). cbn [bind].
  unfold cont. cbv zeta. rewrite !if_mis, !if_gva, !if_dict.
  unfold heads, head, root, set_flags, set_sizes.
  cbn [put_misaligned put_dict set_gvar_alignment_exp n_flags n_offset n_position n_length n_dvar_size n_gvar_size
       f_dvar_alignment_exp f_gvar_alignment_exp propagate_flags f_dvar_misaligned f_dynamic
       f_handle f_dvar_unsupported f_dict f_basic].
  rewrite !existsb_app, !fold_left_app, lens_app, lens1. cbn [existsb fold_left].
  rewrite !orb_false_r, !N.add_assoc.
  set (g := fold_left _ ms 0). 
  assert (G : (if g <? gvar_align t then gvar_align t else g) = N.max g (gvar_align t))
    by (destruct (N.ltb_spec g (gvar_align t)); lia).
  rewrite G.
  assert (L3 : (if 3 <=? dvar_align t then false else r_mis t) = r_mis t && (dvar_align t <? 3)).
  { destruct (N.ltb_spec (dvar_align t) 3), (N.leb_spec 3 (dvar_align t)); (lia || idtac);
    rewrite ?andb_true_r, ?andb_false_r; reflexivity. }
  rewrite L3.
  assert (M : forall a b c : bool, (if b then true else a) || c = a || (b || c)) by (intros [] [] []; reflexivity).
  rewrite M.
  assert (D : (if negb (con_bound f) && match ms with [] => true | m :: _ => is_basic m end &&
                  (size ms =? 0) && negb (is_basic t)
               then false else negb (con_bound f) && match ms with [] => true | m :: _ => is_basic m end) =
              negb (con_bound f) && match ms ++ [t] with [] => true | m :: _ => is_basic m end).
  { destruct ms as [|m ms].
    - cbn [size length app]. destruct (con_bound f), (is_basic t); reflexivity.
    - cbn [app]. rewrite (proj2 (N.eqb_neq (size (m :: ms)) 0)) by (rewrite size_cons; lia).
      rewrite andb_false_r. reflexivity. }
  rewrite D, !orb_assoc. reflexivity.
Qed.
End K.
