(** Proofs for DbusWordProps.v. *)
From Verif Require Import Base DbusElement DbusSigModel DbusSpec DbusSigAnnot DbusSigProofs DbusSigRefine DbusSigSpec DbusSigTheory
  DbusCursorProofs DbusSigResults DbusFlagBits DbusWordModel DbusWordSpec.
From Verif Require DbusFlagBitsProofs.
Local Open Scope N_scope.
Local Open Scope res_scope.

(** * Integers in memory *)
Lemma store_le_length n : forall v, length (store_le n v) = n.
Proof. induction n as [|n IH]; intros v; [reflexivity|]. cbn. now rewrite IH. Qed.
Lemma store_length big n v : length (store_int big n v) = n.
Proof. unfold store_int. destruct big; rewrite ?rev_length; apply store_le_length. Qed.
Lemma load_store_le n : forall v, v < 256 ^ N.of_nat n -> load_le (store_le n v) = v.
Proof.
  induction n as [|n IH]; intros v H; [cbn in *; lia|]. rewrite Nat2N.inj_succ, N.pow_succ_r' in H. cbn [store_le load_le].
  rewrite IH by (apply N.div_lt_upper_bound; lia). rewrite N.add_comm. symmetry. apply N.div_mod. discriminate.
Qed.
Lemma load_store big n v : v < 256 ^ N.of_nat n -> load_int big (store_int big n v) = v.
Proof. intros H. unfold load_int, store_int. destruct big; rewrite ?rev_involutive; now apply load_store_le. Qed.
Lemma store_load_le l : Forall (fun b => b < 256) l -> store_le (length l) (load_le l) = l.
Proof.
  induction 1 as [|b l H F IH]; [reflexivity|]. cbn [length store_le load_le].
  rewrite (N.mul_comm 256), N.mod_add, N.div_add, N.mod_small, N.div_small by (lia || discriminate). rewrite N.add_0_l. now rewrite IH.
Qed.
Lemma store_load big l : Forall (fun b => b < 256) l -> store_int big (length l) (load_int big l) = l.
Proof.
  intros H. unfold load_int, store_int. destruct big.
  - rewrite <- (rev_length l), store_load_le, rev_involutive; [reflexivity|]. now apply Forall_rev.
  - now apply store_load_le.
Qed.
Lemma store_le_bytes n : forall v, Forall (fun b => b < 256) (store_le n v).
Proof. induction n as [|n IH]; intros v; [constructor|]. cbn. constructor; [now apply N.mod_lt|apply IH]. Qed.
Lemma store_bytes big n v : Forall (fun b => b < 256) (store_int big n v).
Proof. unfold store_int. destruct big; [apply Forall_rev|]; apply store_le_bytes. Qed.
Lemma store8_load big l : length l = 8%nat -> Forall (fun b => b < 256) l -> store_int big 8 (load_int big l) = l.
Proof. intros E H. rewrite <- E. now apply store_load. Qed.

(** * Spans *)
Lemma span_shift x m j n : span (x ++ m) (length x + j) n = span m j n.
Proof. unfold span. rewrite skipn_app, skipn_all2 by lia. cbn [app]. do 2 f_equal. lia. Qed.
Lemma span_shift0 x m n : span (x ++ m) (length x) n = span m 0 n.
Proof. rewrite <- (span_shift x m 0 n). f_equal. lia. Qed.
Lemma span_app y z j n : (j + n <= length y)%nat -> span (y ++ z) j n = span y j n.
Proof.
  intros H. unfold span. rewrite skipn_app, firstn_app, skipn_length.
  replace (n - (length y - j))%nat with 0%nat by lia. cbn [firstn]. apply app_nil_r.
Qed.
Lemma span_here y z n : length y = n -> span (y ++ z) 0 n = y.
Proof. intros <-. unfold span. cbn [skipn]. rewrite firstn_app, Nat.sub_diag, firstn_all. cbn. apply app_nil_r. Qed.
Lemma span_all y n : length y = n -> span y 0 n = y.
Proof. intros <-. unfold span. cbn [skipn]. apply firstn_all. Qed.
Lemma memory_app big a b : memory big (a ++ b) = memory big a ++ memory big b.
Proof. apply flat_map_app. Qed.
Lemma memory_length big ws : length (memory big ws) = (8 * length ws)%nat.
Proof.
  induction ws as [|w ws IH]; [reflexivity|]. unfold memory in *. cbn [flat_map]. rewrite app_length, store_length, IH.
  cbn [length]. lia.
Qed.

Definition coeffn (k : kind) : nat := N.to_nat (size_coeff k).
Section K.
Context (k : kind) (Hk : k = node8 \/ k = node64).
Lemma coeff_k : coeff_of (node_id k) = size_coeff k.
Proof. destruct Hk as [-> | ->]; reflexivity. Qed.
Lemma coeff_pos : 0 < size_coeff k.
Proof. destruct Hk as [-> | ->]; reflexivity. Qed.
Lemma words_length big n : length (node_words big (to_ref k n)) = coeffn k.
Proof. destruct Hk as [-> | ->]; reflexivity. Qed.
Lemma fits_wf n : node_fits k n -> DbusFlagBitsProofs.wf (n_flags n).
Proof. intros (A & B & C & _). split; [rewrite A; destruct Hk as [-> | ->]; reflexivity|now split]. Qed.

Lemma derive_shift big x ws i : length x = (coeffn k * N.to_nat i)%nat -> 
  derive_nth big (node_id k) (x ++ ws) i = derive_nth big (node_id k) ws 0.
Proof.
  intros H. unfold derive_nth. rewrite memory_app. pose proof (memory_length big x) as L. rewrite H in L.
  destruct Hk as [-> | ->]; cbn [node_id node8 node64 N.eqb] in *.
  - change (coeffn node8) with 1%nat in L. replace (8 * N.to_nat i)%nat with (length (memory big x)) by lia.
    unfold load_node8. rewrite !span_shift, span_shift0. reflexivity.
  - change (coeffn node64) with 6%nat in L. replace (48 * N.to_nat i)%nat with (length (memory big x)) by lia.
    unfold load_node64. rewrite !span_shift, span_shift0. reflexivity.
Qed.
Lemma derive_front big ws rest : length ws = coeffn k ->
  derive_nth big (node_id k) (ws ++ rest) 0 = derive_nth big (node_id k) ws 0.
Proof.
  intros H. unfold derive_nth. rewrite memory_app. pose proof (memory_length big ws) as L. rewrite H in L.
  destruct Hk as [-> | ->]; cbn [node_id node8 node64 N.eqb] in *.
  - change (coeffn node8) with 1%nat in L. unfold load_node8. change (8 * N.to_nat 0)%nat with 0%nat. rewrite !span_app by lia. reflexivity.
  - change (coeffn node64) with 6%nat in L. unfold load_node64. change (48 * N.to_nat 0)%nat with 0%nat. rewrite !span_app by lia. reflexivity.
Qed.
End K.

Lemma pack_bound f : DbusFlagBitsProofs.wf f -> pack f < 2 ^ 32.
Proof.
  intros H. rewrite DbusFlagBitsProofs.pack_W by exact H. eapply N.lt_le_trans; [apply DbusFlagBitsProofs.W_bound|].
  apply N.pow_le_mono_r; [discriminate|]. unfold DbusFlagBitsProofs.fbits, DbusFlagBitsProofs.tb.
  rewrite !app_length, !map_length, !seq_length. cbn [length]. lia.
Qed.
Lemma derive_words8 big n : node_fits node8 n ->
  derive_nth big 0 (node_words big (to_ref node8 n)) 0 = to_ref node8 n.
Proof.
  intros F. pose proof (fits_wf node8 (or_introl eq_refl) n F) as W. pose proof (pack_bound _ W) as PB.
  destruct F as (_ & _ & _ & F1 & F2 & F3 & F4 & F5). cbn [field_max int_max node8] in *.
  unfold to_ref. cbn [node_id node8 N.eqb].
  destruct (DbusFlagBitsProofs.opl_ok (n_offset n) (n_position n) (n_length n)) as (w & E & Hw & _); [lia..|]. rewrite E.
  unfold derive_nth. cbn [N.eqb]. change (8 * N.to_nat 0)%nat with 0%nat. unfold node_words, memory. cbn [flat_map]. rewrite app_nil_r.
  set (a := store_int big 4 (pack (n_flags n))). set (b := store_int big 2 w).
  set (c := store_int big 1 (n_dvar_size n)). set (d := store_int big 1 (n_gvar_size n)).
  assert (La : length a = 4%nat) by apply store_length. assert (Lb : length b = 2%nat) by apply store_length.
  assert (Lc : length c = 1%nat) by apply store_length. assert (Ld : length d = 1%nat) by apply store_length.
  rewrite store8_load.
  2:{ rewrite !app_length. lia. }
  2:{ repeat (apply Forall_app; split); apply store_bytes. }
  unfold load_node8. cbn [Nat.add]. f_equal.
  - rewrite span_here by exact La. apply load_store. exact PB.
  - replace 4%nat with (length a + 0)%nat by lia. rewrite span_shift, span_here by exact Lb. apply load_store. exact Hw.
  - rewrite app_assoc. replace 6%nat with (length (a ++ b) + 0)%nat by (rewrite app_length; lia).
    rewrite span_shift, span_here by exact Lc. apply load_store. change (256 ^ N.of_nat 1) with 256. lia.
  - rewrite !app_assoc. replace 7%nat with (length ((a ++ b) ++ c) + 0)%nat by (rewrite !app_length; lia).
    rewrite span_shift, span_all by exact Ld. apply load_store. change (256 ^ N.of_nat 1) with 256. lia.
Qed.
Lemma derive_words64 big n : node_fits node64 n ->
  derive_nth big 3 (node_words big (to_ref node64 n)) 0 = to_ref node64 n.
Proof.
  intros F. pose proof (fits_wf node64 (or_intror eq_refl) n F) as W. pose proof (pack_bound _ W) as PB.
  destruct F as (_ & _ & _ & F1 & F2 & F3 & F4 & F5). cbn [field_max int_max node64] in *.
  unfold to_ref. cbn [node_id node64 N.eqb].
  unfold derive_nth. cbn [N.eqb]. change (48 * N.to_nat 0)%nat with 0%nat. unfold node_words, memory. cbn [flat_map]. rewrite app_nil_r.
  set (a := store_int big 4 (pack (n_flags n))). set (b := store_int big 4 0).
  assert (La : length a = 4%nat) by apply store_length. assert (Lb : length b = 4%nat) by apply store_length.
  rewrite store8_load.
  2:{ rewrite !app_length. lia. }
  2:{ repeat (apply Forall_app; split); apply store_bytes. }
  rewrite <- !app_assoc.
  set (o := store_int big 8 (n_offset n)). set (p := store_int big 8 (n_position n)). set (l := store_int big 8 (n_length n)).
  set (d := store_int big 8 (n_dvar_size n)). set (g := store_int big 8 (n_gvar_size n)).
  assert (Lo : length o = 8%nat) by apply store_length. assert (Lp : length p = 8%nat) by apply store_length.
  assert (Ll : length l = 8%nat) by apply store_length. assert (Ld : length d = 8%nat) by apply store_length.
  assert (Lg : length g = 8%nat) by apply store_length.
  unfold load_node64. cbn [Nat.add].
  assert (U : forall v, v <= 2 ^ 64 - 1 -> load_int big (store_int big 8 v) = v).
  { intros v V. apply load_store. change (256 ^ N.of_nat 8) with (2 ^ 64). lia. }
  f_equal.
  - rewrite span_here by exact La. apply load_store. exact PB.
  - replace 4%nat with (length a + 0)%nat at 1 by lia. rewrite span_shift, span_here by exact Lb. now apply load_store.
  - rewrite app_assoc. replace 8%nat with (length (a ++ b) + 0)%nat at 1 by (rewrite app_length; lia).
    rewrite span_shift, span_here by exact Lo. now apply U.
  - do 2 rewrite app_assoc. replace 16%nat with (length ((a ++ b) ++ o) + 0)%nat by (rewrite !app_length; lia).
    rewrite span_shift, span_here by exact Lp. now apply U.
  - do 3 rewrite app_assoc. replace 24%nat with (length (((a ++ b) ++ o) ++ p) + 0)%nat by (rewrite !app_length; lia).
    rewrite span_shift, span_here by exact Ll. now apply U.
  - do 4 rewrite app_assoc. replace 32%nat with (length ((((a ++ b) ++ o) ++ p) ++ l) + 0)%nat by (rewrite !app_length; lia).
    rewrite span_shift, span_here by exact Ld. now apply U.
  - do 5 rewrite app_assoc. replace 40%nat with (length (((((a ++ b) ++ o) ++ p) ++ l) ++ d) + 0)%nat by (rewrite !app_length; lia).
    rewrite span_shift, span_all by exact Lg. now apply U.
Qed.

Section K2.
Context (k : kind) (Hk : k = node8 \/ k = node64).
Lemma derive_words big n : node_fits k n ->
  derive_nth big (node_id k) (node_words big (to_ref k n)) 0 = to_ref k n.
Proof. destruct Hk as [-> | ->]; [apply derive_words8|apply derive_words64]. Qed.

(** Reading the fields back. *)
Lemma ref_reads n : node_fits k n ->
  ref_flags (to_ref k n) = pack (n_flags n) /\ ref_offset (to_ref k n) = n_offset n /\
  ref_position (to_ref k n) = n_position n /\ ref_length (to_ref k n) = n_length n /\
  ref_dvar_size (to_ref k n) = n_dvar_size n /\ ref_gvar_size (to_ref k n) = n_gvar_size n /\
  ref_coeff (to_ref k n) = size_coeff k.
Proof.
  intros (_ & _ & _ & F1 & F2 & F3 & _). unfold to_ref. destruct Hk as [-> | ->]; cbn [node_id node8 node64 N.eqb field_max] in *.
  - destruct (DbusFlagBitsProofs.opl_ok (n_offset n) (n_position n) (n_length n)) as (w & E & Hw & A & B & C); [lia..|]. rewrite E.
    cbn [ref_flags ref_offset ref_position ref_length ref_dvar_size ref_gvar_size ref_coeff]. repeat split; assumption.
  - repeat split.
Qed.

(** * The buffer of the parser *)
Lemma flat_length {A} (f : A -> list (option N)) c l : (forall x, length (f x) = c) -> length (flat_map f l) = (c * length l)%nat.
Proof. intros H. induction l as [|x l IH]; cbn [flat_map length]; [lia|]. rewrite app_length, H, IH. lia. Qed.
Definition cell (big : bool) (o : option Node) : list (option N) :=
  match o with Some n => map Some (node_words big (to_ref k n)) | None => repeat None (coeffn k) end.
Lemma cell_length big o : length (cell big o) = coeffn k.
Proof. destruct o as [n|]; cbn [cell]; [rewrite map_length; apply words_length, Hk|apply repeat_length]. Qed.
Lemma buffer_length big b : length (buffer_words big k b) = (coeffn k * length b)%nat.
Proof. apply (flat_length (cell big)). apply cell_length. Qed.
Lemma buffer_count big b : N.of_nat (length (buffer_words big k b)) / coeff_of (node_id k) = N.of_nat (length b).
Proof.
  rewrite buffer_length, coeff_k by exact Hk. rewrite Nat2N.inj_mul. unfold coeffn. rewrite N2Nat.id, N.mul_comm.
  apply N.div_mul. pose proof (coeff_pos k Hk). lia.
Qed.
Lemma buffer_app big a b : buffer_words big k (a ++ b) = buffer_words big k a ++ buffer_words big k b.
Proof. apply flat_map_app. Qed.
Lemma init_some l : init (map Some l) = Ok l.
Proof. induction l as [|x l IH]; [reflexivity|]. cbn. now rewrite IH. Qed.
Lemma split_nth {A} (l : list A) i x : nth_error l i = Some x -> l = firstn i l ++ x :: skipn (S i) l.
Proof.
  revert i. induction l as [|a l IH]; intros [|i] H; try discriminate; cbn in *; [congruence|]. f_equal. now apply IH.
Qed.
Lemma read_buffer big b i : (forall n, In (Some n) b -> node_fits k n) ->
  word_rd big (node_id k) (buffer_words big k b) i = res_map (to_ref k) (rd b i).
Proof.
  intros F. unfold word_rd, rd, res_map. cbv zeta. rewrite buffer_count, coeff_k by exact Hk. fold (coeffn k).
  destruct (nth_error b (N.to_nat i)) as [o|] eqn:E.
  - assert (L : i < N.of_nat (length b)) by (assert (nth_error b (N.to_nat i) <> None) as X by congruence; apply nth_error_Some in X; lia).
    rewrite (proj2 (N.ltb_lt _ _) L). rewrite (split_nth b _ _ E) at 1. rewrite buffer_app.
    change (buffer_words big k (o :: skipn (S (N.to_nat i)) b)) with (cell big o ++ buffer_words big k (skipn (S (N.to_nat i)) b)).
    assert (X : length (buffer_words big k (firstn (N.to_nat i) b)) = (coeffn k * N.to_nat i)%nat) by (rewrite buffer_length, firstn_length; lia).
    rewrite skipn_app, <- X, skipn_all, Nat.sub_diag. cbn [app skipn].
    rewrite firstn_app, cell_length, Nat.sub_diag. cbn [firstn]. rewrite app_nil_r.
    rewrite <- (cell_length big o), firstn_all. destruct o as [n|]; cbn [cell bind].
    + rewrite init_some. cbn [bind]. rewrite derive_words; [reflexivity|]. apply F. eapply nth_error_In. exact E.
    + unfold coeffn. destruct Hk as [-> | ->]; reflexivity.
  - apply nth_error_None in E. rewrite (proj2 (N.ltb_ge _ _)) by lia. reflexivity.
Qed.
Lemma write_buffer big b i n :
  word_wr big (node_id k) (buffer_words big k b) i (to_ref k n) = res_map (buffer_words big k) (wr b i n).
Proof.
  unfold word_wr, wr, res_map. cbv zeta. rewrite buffer_count, coeff_k by exact Hk. fold (coeffn k).
  destruct (N.ltb_spec i (N.of_nat (length b))) as [L|L]; [|reflexivity]. cbn [bind]. f_equal.
  unfold upd. rewrite buffer_app.
  change (buffer_words big k (Some n :: skipn (S (N.to_nat i)) b)) with (map Some (node_words big (to_ref k n)) ++ buffer_words big k (skipn (S (N.to_nat i)) b)).
  assert (G : forall j, firstn (coeffn k * j) (buffer_words big k b) = buffer_words big k (firstn j b) /\
                        skipn (coeffn k * j) (buffer_words big k b) = buffer_words big k (skipn j b)).
  { intros j. clear L. revert j. induction b as [|o b IH]; intros j.
    - change (buffer_words big k []) with (@nil (option N)). rewrite !firstn_nil, !skipn_nil. split; reflexivity.
    - change (buffer_words big k (o :: b)) with (cell big o ++ buffer_words big k b). destruct j as [|j].
      + rewrite Nat.mul_0_r. cbn [firstn skipn]. split; reflexivity.
      + rewrite Nat.mul_succ_r, Nat.add_comm. rewrite firstn_app, skipn_app, cell_length.
        replace (coeffn k + coeffn k * j - coeffn k)%nat with (coeffn k * j)%nat by lia.
        rewrite firstn_all2, skipn_all2 by (rewrite cell_length; lia). cbn [app firstn skipn].
        destruct (IH j) as [-> ->]. split; reflexivity. }
  destruct (G (N.to_nat i)) as [-> _]. replace (coeffn k * N.to_nat i + coeffn k)%nat with (coeffn k * S (N.to_nat i))%nat by lia.
  destruct (G (S (N.to_nat i))) as [_ ->]. reflexivity.
Qed.
End K2.

(** * The nodes of a type fit *)
Definition nb (nid B : N) (n : Node) : Prop :=
  f_node (n_flags n) = nid /\ f_dvar_alignment_exp (n_flags n) < 4 /\ f_gvar_alignment_exp (n_flags n) < 4 /\
  n_offset n <= B /\ n_position n <= B /\ 1 <= n_length n <= B /\ n_dvar_size n <= 8 * B /\ n_gvar_size n <= 8 * B.
Lemma nb_mono nid B C n : B <= C -> nb nid B n -> nb nid C n.
Proof. intros L (A1 & A2 & A3 & A4 & A5 & A6 & A7 & A8). unfold nb. repeat split; try assumption; lia. Qed.
Lemma nb_all nid B C l : B <= C -> Forall (nb nid B) l -> Forall (nb nid C) l.
Proof. intros L. apply Forall_impl. intros n. now apply nb_mono. Qed.
Lemma nb_root nid B t o p : o <= B -> p <= B -> len t <= B -> nb nid B (root nid t o p).
Proof.
  intros Ho Hp Hl. pose proof (dvar_align_le t). pose proof (gvar_align_le t). pose proof (dvar_size_le t). pose proof (gvar_end_le t).
  pose proof (len_pos t). unfold nb. cbn [root n_flags f_node f_dvar_alignment_exp f_gvar_alignment_exp n_offset n_position n_length n_dvar_size n_gvar_size].
  repeat split; lia.
Qed.
Lemma nb_cont nid B t o p : o <= B -> p <= B -> len t <= B -> nb nid B (cont nid t o p).
Proof.
  intros Ho Hp Hl. pose proof (nb_root nid B t o p Ho Hp Hl) as R. unfold cont. cbv zeta. rewrite if_mis. exact R.
Qed.
Lemma nb_close nid B e ms : 1 + lens ms <= B -> nb nid B (close_node nid e ms).
Proof.
  intros H. pose proof (members_le ms). unfold nb.
  cbn [close_node n_flags f_node f_dvar_alignment_exp f_gvar_alignment_exp n_offset n_position n_length n_dvar_size n_gvar_size].
  repeat split; lia.
Qed.
Lemma nb_memb nid B ms : Forall (fun t => Forall (nb nid (len t)) (body nid t)) ms ->
  forall o p, o + lens ms <= B -> p + size ms <= B -> Forall (nb nid B) (memb nid (body nid) o p ms).
Proof.
  induction 1 as [|m ms H F IH]; intros o p Ho Hp; cbn [memb]; [constructor|]. rewrite lens_cons in Ho. rewrite size_cons in Hp.
  cbn [app]. constructor; [apply nb_cont; lia|]. apply Forall_app. split; [apply (nb_all nid (len m)); [lia|exact H]|].
  apply IH; lia.
Qed.
Lemma nb_body nid t : Forall (nb nid (len t)) (body nid t).
Proof.
  induction t as [b| |t IH|t IH|ms IH|kb v IH] using ty_rect'; cbn [body]; try constructor.
  - unfold len in *. cbn [print]. rewrite size_cons. fold (len t) in *. pose proof (len_pos t). apply nb_cont; lia.
  - apply (nb_all nid (len t)); [|exact IH]. unfold len. cbn [print]. rewrite size_cons. lia.
  - unfold len in *. cbn [print]. rewrite size_cons. fold (len t) in *. pose proof (len_pos t). apply nb_cont; lia.
  - apply (nb_all nid (len t)); [|exact IH]. unfold len. cbn [print]. rewrite size_cons. lia.
  - assert (E : len (TStruct ms) = 2 + lens ms) by (unfold len; cbn [print]; rewrite size_cons, size_app, flat_map_size, size_cons, size_nil; lia).
    pose proof (members_le ms). rewrite E. apply Forall_app. split.
    + apply nb_memb; [exact IH|lia|lia].
    + constructor; [apply nb_close; lia|constructor].
  - assert (E : len (TDict kb v) = 3 + len v) by (unfold len; cbn [print]; rewrite !size_cons, size_app, size_cons, size_nil; lia).
    pose proof (len_pos v). rewrite E. change (len (TBasic kb)) with 1. apply nb_cont; try lia. change (len (TBasic kb)) with 1. lia.
  - assert (E : len (TDict kb v) = 3 + len v) by (unfold len; cbn [print]; rewrite !size_cons, size_app, size_cons, size_nil; lia).
    pose proof (len_pos v). rewrite E. constructor; [apply nb_cont; lia|]. apply Forall_app. split.
    + apply (nb_all nid (len v)); [lia|exact IH].
    + constructor; [|constructor]. apply nb_close. rewrite !lens_cons. change (len (TBasic kb)) with 1. change (lens []) with 0. lia.
Qed.

(** What holds of the signatures one can obtain. *)
Definition good (s : Sig) (ns : list Node) : Prop :=
  let k := s_kind s in
  (k = node8 \/ k = node64) /\ s_nodes s = map Some ns /\ ns <> [] /\ size ns <= length_max k /\
  Forall (fun n => node_fits k n /\ 1 <= n_length n) ns.
Lemma nb_fits k B n : k = node8 \/ k = node64 -> B <= length_max k -> nb (node_id k) B n -> node_fits k n /\ 1 <= n_length n.
Proof.
  intros Hk HB (A1 & A2 & A3 & A4 & A5 & A6 & A7 & A8). unfold node_fits.
  destruct Hk as [-> | ->].
  - change (length_max node8) with 31 in HB. change (field_max node8) with 31. change (int_max node8) with 255. repeat split; try assumption; lia.
  - change (length_max node64) with (2 ^ 61 - 1) in HB. change (field_max node64) with (2 ^ 64 - 1). change (int_max node64) with (2 ^ 64 - 1).
    repeat split; try assumption; lia.
Qed.
Lemma reachable_good s : reachable s -> exists ns, good s ns.
Proof.
  induction 1 as [fuel text s E|s i s' R IH E].
  - pose proof (sig_new_bound _ _ _ E) as B. rewrite (sig_new_ok fuel text B) in E.
    pose proof (srun_sound (size text) text [] eq_refl) as S. cbn [prefix app] in S.
    destruct (srun (size text) [] text) as [e|t]; [discriminate|].
    assert (Es : s = mkSig (kind_for text) (map Some (annot (node_id (kind_for text)) t))) by congruence. clear E. subst s.
    set (k := kind_for text) in *. assert (Hk : k = node8 \/ k = node64) by (unfold k, kind_for; destruct (_ <=? _); auto).
    exists (annot (node_id k) t). unfold good. cbn [s_kind s_nodes]. split; [exact Hk|]. split; [reflexivity|]. split; [discriminate|].
    assert (HL : size (annot (node_id k) t) = len t) by (unfold annot; rewrite size_cons; apply body_size).
    assert (HM : len t <= length_max k).
    { unfold len. rewrite <- S. unfold k, kind_for. destruct (N.leb_spec (size text) 31) as [L|L]; [exact L|].
      change (length_max node64) with (2 ^ 61 - 1). lia. }
    split; [rewrite HL; exact HM|]. apply (Forall_impl _ (P := nb (node_id k) (len t))); [intros n; now apply nb_fits|].
    unfold annot. constructor; [apply nb_root; lia|apply nb_body].
  - destruct IH as (ns & Hk & En & Ne & Sz & F). unfold sig_at in E.
    destruct (node_at s i) as [[n|]| |] eqn:EA; cbn [bind] in E; try discriminate.
    destruct (negb (f_prefix (n_flags n))); [discriminate|].
    destruct (N.leb_spec i (N.of_nat (length (s_nodes s)))) as [L|]; [|discriminate].
    destruct (N.leb_spec (n_length n) (N.of_nat (length (s_nodes s)) - i)) as [L'|]; [|discriminate].
    assert (Es : s' = mkSig (s_kind s) (firstn (N.to_nat (n_length n)) (skipn (N.to_nat i) (s_nodes s)))) by congruence. clear E. subst s'.
    rewrite En in *. rewrite map_length in *. rewrite skipn_map, firstn_map.
    assert (In n ns).
    { unfold node_at in EA. destruct (sig_kind s) as [kk| |]; cbn [bind] in EA; try discriminate. destruct (_ <? _); [|discriminate].
      rewrite En, rd_map in EA. destruct (nth_error ns (N.to_nat i)) eqn:X; [|discriminate]. cbn [bind] in EA.
      injection EA as ->. eapply nth_error_In. exact X. }
    pose proof (proj1 (Forall_forall _ _) F n H) as [_ P1].
    assert (Lf : length (firstn (N.to_nat (n_length n)) (skipn (N.to_nat i) ns)) = N.to_nat (n_length n)) by (rewrite firstn_length, skipn_length; lia).
    exists (firstn (N.to_nat (n_length n)) (skipn (N.to_nat i) ns)). unfold good. cbn [s_kind s_nodes].
    split; [exact Hk|]. split; [reflexivity|]. split; [intros X; rewrite X in Lf; cbn in Lf; lia|]. split.
    + unfold size in *. lia.
    + apply Forall_forall. intros x X. apply (proj1 (Forall_forall _ _) F). rewrite <- (firstn_skipn (N.to_nat i) ns). apply in_or_app. right.
      rewrite <- (firstn_skipn (N.to_nat (n_length n)) (skipn (N.to_nat i) ns)). apply in_or_app. now left.
Qed.

(** * Reading signatures *)
Section Good.
Context (big : bool) (s : Sig) (ns : list Node) (G : good s ns).
Notation k := (s_kind s).
Let Hk : k = node8 \/ k = node64 := proj1 G.
Definition nw (n : Node) : list N := node_words big (to_ref k n).

Lemma g_nodes : s_nodes s = map Some ns. Proof. apply G. Qed.
Lemma g_words : sig_words big s = flat_map nw ns.
Proof. unfold sig_words. rewrite g_nodes. generalize ns. intros l. induction l as [|n l IH]; [reflexivity|]. cbn [map flat_map]. now rewrite IH. Qed.
Lemma g_fits n : In n ns -> node_fits k n.
Proof. intros H. apply (proj1 (Forall_forall _ _) (proj2 (proj2 (proj2 (proj2 G)))) n H). Qed.
Lemma nws_length l : length (flat_map nw l) = (coeffn k * length l)%nat.
Proof. induction l as [|n l IH]; cbn [flat_map length]; [lia|]. rewrite app_length, IH. unfold nw. rewrite words_length by exact Hk. lia. Qed.
Lemma g_count : N.of_nat (length (sig_words big s)) = size ns * size_coeff k.
Proof. rewrite g_words, nws_length, Nat2N.inj_mul. unfold coeffn, size. rewrite N2Nat.id. lia. Qed.
Lemma g_first : exists n l, ns = n :: l /\ word_flags big (sig_words big s) = Ok (pack (n_flags n)) /\ f_node (n_flags n) = node_id k.
Proof.
  assert (X : exists n l, ns = n :: l) by (pose proof (proj1 (proj2 (proj2 G))); destruct ns as [|n l]; [congruence|now exists n, l]).
  destruct X as (n & l & E). exists n, l. split; [exact E|].
  assert (F : node_fits k n) by (apply g_fits; rewrite E; now left). split; [|apply F].
  rewrite g_words. replace (flat_map nw ns) with (flat_map nw (n :: l)) by (now rewrite E). cbn [flat_map].
  pose proof (derive_words k Hk big n F) as D. rewrite <- (derive_front k Hk big _ (flat_map nw l)) in D by (apply words_length, Hk).
  fold (nw n) in D. destruct (ref_reads k Hk n F) as [R _]. rewrite <- R, <- D.
  pose proof (words_length k Hk big n) as L. fold (nw n) in L.
  destruct (nw n) as [|w ws]; [exfalso; unfold coeffn in L; destruct Hk as [X | X]; rewrite X in L; discriminate|].
  cbn [app word_flags]. f_equal. unfold derive_nth, memory. cbn [flat_map].
  destruct (node_id k =? 0); cbn [ref_flags load_node8 load_node64]; change (8 * N.to_nat 0)%nat with 0%nat; change (48 * N.to_nat 0)%nat with 0%nat;
    rewrite span_app by (rewrite store_length; lia); reflexivity.
Qed.
Lemma g_kind : sig_kind s = Ok k.
Proof.
  destruct g_first as (n & l & E & _ & F). unfold sig_kind, sig_flags. rewrite g_nodes, E, rd_map. cbn [nth_error N.to_nat bind].
  rewrite F. destruct Hk as [-> | ->]; reflexivity.
Qed.
Lemma g_node_at i : node_at s i = Ok (nth_error ns (N.to_nat i)).
Proof.
  unfold node_at. rewrite g_kind. cbn [bind]. unfold words. rewrite g_nodes, map_length.
  rewrite N.div_mul by (pose proof (coeff_pos k Hk); lia). destruct (N.ltb_spec i (N.of_nat (length ns))) as [L|L].
  - rewrite rd_map. destruct (nth_error ns (N.to_nat i)) eqn:E; [reflexivity|]. apply nth_error_None in E. lia.
  - symmetry. f_equal. apply nth_error_None. lia.
Qed.
Lemma g_fs : exists f, word_flags big (sig_words big s) = Ok f /\ fs_node f = node_id k.
Proof.
  destruct g_first as (n & l & E & F & N). eexists. split; [exact F|]. rewrite DbusFlagBitsProofs.node_ok; [exact N|].
  apply (fits_wf k Hk), g_fits. rewrite E. now left.
Qed.
Lemma g_derive i n : nth_error ns (N.to_nat i) = Some n -> derive_nth big (node_id k) (sig_words big s) i = to_ref k n.
Proof.
  intros E. rewrite g_words. rewrite (split_nth _ _ _ E), flat_map_app. cbn [flat_map].
  rewrite (derive_shift k Hk).
  - rewrite (derive_front k Hk) by (apply words_length, Hk). apply (derive_words k Hk). apply g_fits. eapply nth_error_In. exact E.
  - rewrite nws_length, firstn_length. assert (nth_error ns (N.to_nat i) <> None) as X by congruence. apply nth_error_Some in X. lia.
Qed.
Lemma g_word_node_at i : word_node_at big (sig_words big s) i = Ok (option_map (to_ref k) (nth_error ns (N.to_nat i))).
Proof.
  destruct g_fs as (f & E & F). unfold word_node_at. rewrite E. cbn [bind]. rewrite F.
  assert (D : derive_len (node_id k) (sig_words big s) = size ns).
  { unfold derive_len. rewrite g_count, (coeff_k k Hk). apply N.div_mul. pose proof (coeff_pos k Hk). lia. }
  assert (Q : (if i <? derive_len (node_id k) (sig_words big s) then Some (derive_nth big (node_id k) (sig_words big s) i) else None)
              = option_map (to_ref k) (nth_error ns (N.to_nat i))).
  { rewrite D. destruct (nth_error ns (N.to_nat i)) as [n|] eqn:X.
    - rewrite (g_derive i n X). assert (nth_error ns (N.to_nat i) <> None) as Y by congruence. apply nth_error_Some in Y.
      rewrite (proj2 (N.ltb_lt _ _)) by (unfold size; lia). reflexivity.
    - apply nth_error_None in X. rewrite (proj2 (N.ltb_ge _ _)) by (unfold size; lia). reflexivity. }
  rewrite <- Q. destruct Hk as [Y | Y]; rewrite Y; reflexivity.
Qed.
Lemma g_word_len : word_len big (sig_words big s) = sig_len s.
Proof.
  destruct g_fs as (f & E & F). unfold word_len, sig_len. rewrite E, g_kind. cbn [bind]. rewrite F, g_count. unfold words.
  rewrite g_nodes, map_length. fold (size ns). change (size_coeff node8) with 1. change (coeff_of 0) with 1.
  destruct Hk as [Y | Y]; rewrite Y; reflexivity.
Qed.
Lemma cut_words l : forall j, firstn (coeffn k * j) (flat_map nw l) = flat_map nw (firstn j l) /\
                              skipn (coeffn k * j) (flat_map nw l) = flat_map nw (skipn j l).
Proof.
  induction l as [|n l IH]; intros j.
  - cbn [flat_map]. rewrite !firstn_nil, !skipn_nil. split; reflexivity.
  - destruct j as [|j]; [rewrite Nat.mul_0_r; split; reflexivity|]. cbn [flat_map firstn skipn].
    rewrite Nat.mul_succ_r, Nat.add_comm. rewrite firstn_app, skipn_app. pose proof (words_length k Hk big n) as L. fold (nw n) in L. rewrite L.
    replace (coeffn k + coeffn k * j - coeffn k)%nat with (coeffn k * j)%nat by lia.
    rewrite firstn_all2, skipn_all2 by lia. cbn [app]. destruct (IH j) as [-> ->]. split; reflexivity.
Qed.
Lemma sub_words a m : flat_map nw (firstn m (skipn a ns)) = firstn (coeffn k * m) (skipn (coeffn k * a) (flat_map nw ns)).
Proof. destruct (cut_words ns a) as [_ ->]. destruct (cut_words (skipn a ns) m) as [-> _]. reflexivity. Qed.
Lemma g_word_at i : word_at big (sig_words big s) i = res_map (option_map (sig_words big)) (sig_at s i).
Proof.
  unfold word_at, sig_at. rewrite g_word_node_at, g_node_at. cbn [bind].
  destruct (nth_error ns (N.to_nat i)) as [n|] eqn:E; cbn [option_map]; [|reflexivity].
  assert (F : node_fits k n) by (apply g_fits; eapply nth_error_In; exact E).
  destruct (ref_reads k Hk n F) as (R1 & _ & _ & R4 & _ & _ & R7). rewrite R1, R4, R7.
  assert (P : fs_all (pack (n_flags n)) FLAG_PREFIX = f_prefix (n_flags n)) by (apply DbusFlagBitsProofs.word_reads; apply (fits_wf k Hk), F).
  rewrite P. destruct (f_prefix (n_flags n)); cbn [negb]; [|reflexivity].
  assert (Li : i < size ns) by (assert (nth_error ns (N.to_nat i) <> None) as Y by congruence; apply nth_error_Some in Y; unfold size; lia).
  pose proof (proj1 (proj2 (proj2 (proj2 G)))) as Sz.
  assert (M : length_max k * size_coeff k < 2 ^ 64) by (destruct Hk as [Y | Y]; rewrite Y; reflexivity).
  pose proof (coeff_pos k Hk) as CP.
  rewrite g_nodes, map_length. fold (size ns). rewrite (proj2 (N.leb_le _ _)) by lia.
  unfold strict_mul. assert (W1 : i * size_coeff k < 2 ^ 64) by nia. rewrite (proj2 (N.ltb_lt _ _) W1). cbn [bind].
  unfold split_at at 1. rewrite g_count. rewrite (proj2 (N.leb_le (i * size_coeff k) _)) by nia. cbn [bind snd].
  assert (RL : N.of_nat (length (skipn (N.to_nat (i * size_coeff k)) (sig_words big s))) = (size ns - i) * size_coeff k).
  { rewrite skipn_length, Nat2N.inj_sub, g_count, N2Nat.id. nia. }
  destruct (N.leb_spec (n_length n) (size ns - i)) as [L|L].
  - assert (W2 : n_length n * size_coeff k < 2 ^ 64) by nia. rewrite (proj2 (N.ltb_lt _ _) W2). cbn [bind].
    unfold split_at. rewrite RL. rewrite (proj2 (N.leb_le _ _)) by nia. cbn [bind fst]. unfold res_map. cbn [bind option_map]. do 2 f_equal.
    unfold sig_words at 2. cbn [s_kind s_nodes]. rewrite skipn_map, firstn_map.
    rewrite g_words. rewrite !N2Nat.inj_mul. fold (coeffn k). rewrite (Nat.mul_comm (N.to_nat i)), (Nat.mul_comm (N.to_nat (n_length n))).
    rewrite <- sub_words. generalize (firstn (N.to_nat (n_length n)) (skipn (N.to_nat i) ns)). intros l.
    induction l as [|x l IH]; [reflexivity|]. cbn [map flat_map]. now rewrite <- IH.
  - destruct (N.ltb_spec (n_length n * size_coeff k) (2 ^ 64)) as [W2|W2]; [|reflexivity]. cbn [bind].
    unfold split_at. rewrite RL. rewrite (proj2 (N.leb_gt _ _)) by nia. reflexivity.
Qed.
Lemma from_id_ok e : from_id (e_id e) = Ok e.
Proof. destruct e; reflexivity. Qed.
Lemma g_code i : word_code_at big (sig_words big s) i = Ok (option_map (fun n => e_code (n_element n)) (nth_error ns (N.to_nat i))).
Proof.
  unfold word_code_at. rewrite g_word_node_at. cbn [bind]. destruct (nth_error ns (N.to_nat i)) as [n|] eqn:E; cbn [option_map]; [|reflexivity].
  assert (F : node_fits k n) by (apply g_fits; eapply nth_error_In; exact E).
  destruct (ref_reads k Hk n F) as (R1 & _). rewrite R1, DbusFlagBitsProofs.element_ok by (apply (fits_wf k Hk), F).
  rewrite from_id_ok. reflexivity.
Qed.
End Good.

Lemma map_some_inj {A} (a : list A) : forall b, map Some a = map Some b -> a = b.
Proof. induction a as [|x a IH]; intros [|y b] B; try discriminate; [reflexivity|]. cbn in B. injection B as -> B. f_equal. now apply IH. Qed.
(** The text of a signature of a type, from its words. *)
Lemma code_text big t s : reachable s -> is_sig t s -> forall i, word_code_at big (sig_words big s) i = Ok (nth_error (print t) (N.to_nat i)).
Proof.
  intros R I i. destruct (reachable_good s R) as [ns G]. rewrite (g_code big s ns G).
  destruct I as [k r Hk Hr ->]. assert (E : ns = r :: body (node_id k) t).
  { destruct G as (_ & A & _). cbn [s_nodes] in A. symmetry. now apply map_some_inj. }
  rewrite E. rewrite <- (codes_ns k t r Hr). rewrite nth_error_map. destruct (nth_error _ _); reflexivity.
Qed.
