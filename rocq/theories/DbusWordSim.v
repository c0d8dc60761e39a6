(** The parser on words does what the parser on nodes does. *)
From Verif Require Import Base DbusElement DbusSigModel DbusSpec DbusSigProofs DbusFlagBits DbusWordModel DbusWordSpec DbusWordParse DbusWordProofs.
From Verif Require DbusFlagBitsProofs.
Local Open Scope N_scope.
Local Open Scope res_scope.

(** Two computations with related results, or that fail alike. *)
Definition rel {A B} (R : A -> B -> Prop) (x : res A) (y : res B) : Prop :=
  match x, y with
  | Ok a, Ok b => R a b
  | Panic, Panic => True
  | NoFuel, NoFuel => True
  | _, _ => False
  end.
Lemma rel_bind {A B C D} (R : A -> B -> Prop) (S : C -> D -> Prop) x y f g :
  rel R x y -> (forall a b, R a b -> rel S (f a) (g b)) -> rel S (bind x f) (bind y g).
Proof. destruct x, y; cbn [rel bind]; try contradiction; auto. Qed.
Lemma rel_eq {A} (x : res A) : rel eq x x.
Proof. destruct x; cbn; auto. Qed.
Lemma rel_same {A C D} (S : C -> D -> Prop) (x : res A) f g :
  (forall a, x = Ok a -> rel S (f a) (g a)) -> rel S (bind x f) (bind x g).
Proof. destruct x; cbn [rel bind]; auto. Qed.

Lemma rel_left {A B C D} (R : A -> B -> Prop) (S : C -> D -> Prop) x b f y :
  rel R x (Ok b) -> (forall a, R a b -> rel S (f a) y) -> rel S (bind x f) y.
Proof. destruct x; cbn [rel bind]; try contradiction; auto. Qed.

Section K.
Context (big : bool) (k : kind) (Hk : k = node8 \/ k = node64).
Definition RN (r : NodeRef) (n : Node) : Prop := r = to_ref k n /\ node_fits k n.
Definition RB (ws : wbuffer) (b : buffer) : Prop :=
  ws = buffer_words big k b /\ forall n, In (Some n) b -> node_fits k n.

Lemma sim_rd ws b i : RB ws b -> rel RN (wrd big k ws i) (rd b i).
Proof.
  intros [-> F]. unfold wrd. rewrite (read_buffer k Hk big b i F). unfold rd. destruct (nth_error b (N.to_nat i)) as [[n|]|] eqn:E; cbn; auto.
  split; [reflexivity|]. apply F. eapply nth_error_In. exact E.
Qed.
Lemma sim_wr ws b i r n : RB ws b -> RN r n -> rel RB (wwr big k ws i r) (wr b i n).
Proof.
  intros [-> F] [-> N]. unfold wwr. rewrite (write_buffer k Hk big b i n). unfold wr. destruct (_ <? _); cbn; auto.
  split; [reflexivity|]. intros x X. unfold upd in X. apply in_app_or in X. destruct X as [X|[X|X]].
  - apply F. rewrite <- (firstn_skipn (N.to_nat i) b). apply in_or_app. now left.
  - injection X as <-. exact N.
  - apply F. rewrite <- (firstn_skipn (S (N.to_nat i)) b). apply in_or_app. now right.
Qed.

(** Nodes. *)
Lemma wf_fits n : node_fits k n -> DbusFlagBitsProofs.wf (n_flags n).
Proof. apply (fits_wf k Hk). Qed.
Lemma to_ref_flags n f : to_ref k (set_flags n f) = ref_set_flags (to_ref k n) (pack f).
Proof. unfold to_ref. destruct (node_id k =? 0); reflexivity. Qed.
Lemma to_ref_sizes n d g : to_ref k (set_sizes n d g) = ref_set_sizes (to_ref k n) d g.
Proof. unfold to_ref. destruct (node_id k =? 0); reflexivity. Qed.
Lemma R_flags r n : RN r n -> ref_flags r = pack (n_flags n).
Proof. intros [-> F]. apply (ref_reads k Hk n F). Qed.
Lemma R_offset r n : RN r n -> ref_offset r = n_offset n.
Proof. intros [-> F]. apply (ref_reads k Hk n F). Qed.
Lemma R_position r n : RN r n -> ref_position r = n_position n.
Proof. intros [-> F]. apply (ref_reads k Hk n F). Qed.
Lemma R_length r n : RN r n -> ref_length r = n_length n.
Proof. intros [-> F]. apply (ref_reads k Hk n F). Qed.
Lemma R_dvar_size r n : RN r n -> ref_dvar_size r = n_dvar_size n.
Proof. intros [-> F]. apply (ref_reads k Hk n F). Qed.
Lemma R_gvar_size r n : RN r n -> ref_gvar_size r = n_gvar_size n.
Proof. intros [-> F]. apply (ref_reads k Hk n F). Qed.
Lemma R_element r n : RN r n -> ref_element r = Ok (n_element n).
Proof.
  intros R. unfold ref_element. rewrite (R_flags _ _ R). destruct R as [_ F]. rewrite DbusFlagBitsProofs.element_ok by (apply wf_fits, F).
  apply from_id_ok.
Qed.
Lemma R_reads r n : RN r n ->
  fs_dvar_alignment_exp (ref_flags r) = f_dvar_alignment_exp (n_flags n) /\
  fs_gvar_alignment_exp (ref_flags r) = f_gvar_alignment_exp (n_flags n) /\
  fs_all (ref_flags r) FLAG_OPEN = f_open (n_flags n) /\
  fs_all (ref_flags r) FLAG_CLOSE = f_close (n_flags n) /\
  fs_all (ref_flags r) FLAG_DICT = f_dict (n_flags n) /\
  fs_all (ref_flags r) FLAG_BASIC = f_basic (n_flags n).
Proof.
  intros R. rewrite (R_flags _ _ R). destruct R as [_ F]. pose proof (DbusFlagBitsProofs.word_reads _ (wf_fits _ F)) as H. intuition.
Qed.
(** Changing the flags. *)
Definition keeps (f g : FlagSet) : Prop :=
  f_node g = f_node f /\ f_dvar_alignment_exp g = f_dvar_alignment_exp f /\ f_gvar_alignment_exp g < 4.
Lemma R_set_flags r n w f : RN r n -> w = pack f -> keeps (n_flags n) f -> RN (ref_set_flags r w) (set_flags n f).
Proof.
  intros [-> F] -> (K1 & K2 & K3). split; [symmetry; apply to_ref_flags|].
  destruct F as (F1 & F2 & F3 & F4). unfold node_fits. cbn [set_flags n_flags n_offset n_position n_length n_dvar_size n_gvar_size].
  rewrite K1, K2. repeat split; try apply F4; assumption.
Qed.
Lemma keeps_dict f v : DbusFlagBitsProofs.wf f -> keeps f (put_dict f v).
Proof. intros (_ & _ & H). destruct f. repeat split; assumption. Qed.
Lemma keeps_unsupported f v : DbusFlagBitsProofs.wf f -> keeps f (put_unsupported f v).
Proof. intros (_ & _ & H). destruct f. repeat split; assumption. Qed.
Lemma keeps_misaligned f v : DbusFlagBitsProofs.wf f -> keeps f (put_misaligned f v).
Proof. intros (_ & _ & H). destruct f. repeat split; assumption. Qed.
Lemma keeps_propagate f g : DbusFlagBitsProofs.wf f -> keeps f (propagate_flags f g).
Proof. intros (_ & _ & H). destruct f. repeat split; assumption. Qed.
Lemma keeps_gvar f v : v < 4 -> keeps f (set_gvar_alignment_exp f v).
Proof. intros H. destruct f. repeat split; assumption. Qed.
Lemma R_put_misaligned r n (v : bool) : RN r n ->
  RN (ref_set_flags r ((if v then fs_set else fs_clear) (ref_flags r) FLAG_DVAR_MISALIGNED)) (set_flags n (put_misaligned (n_flags n) v)).
Proof.
  intros R. pose proof (wf_fits _ (proj2 R)) as W. apply R_set_flags; [exact R| |now apply keeps_misaligned]. rewrite (R_flags _ _ R).
  destruct v; [apply (DbusFlagBitsProofs.set_misaligned _ W)|apply (DbusFlagBitsProofs.clear_misaligned _ W)].
Qed.
Lemma R_clear_dict r n : RN r n ->
  RN (ref_set_flags r (fs_clear (ref_flags r) FLAG_DICT)) (set_flags n (put_dict (n_flags n) false)).
Proof.
  intros R. pose proof (wf_fits _ (proj2 R)) as W. apply R_set_flags; [exact R| |now apply keeps_dict]. rewrite (R_flags _ _ R).
  apply (DbusFlagBitsProofs.clear_dict _ W).
Qed.
Lemma R_unsupported r n : RN r n ->
  RN (ref_set_flags r (fs_set (ref_flags r) FLAG_DVAR_UNSUPPORTED)) (set_flags n (put_unsupported (n_flags n) true)).
Proof.
  intros R. pose proof (wf_fits _ (proj2 R)) as W. apply R_set_flags; [exact R| |now apply keeps_unsupported]. rewrite (R_flags _ _ R).
  apply (DbusFlagBitsProofs.set_unsupported _ W).
Qed.
Lemma R_propagate r n r' n' : RN r n -> RN r' n' ->
  RN (ref_set_flags r (fs_set (ref_flags r) (N.land (ref_flags r')
       (N.lor (N.lor (N.lor FLAG_DYNAMIC FLAG_HANDLE) FLAG_DVAR_UNSUPPORTED) FLAG_DVAR_MISALIGNED))))
     (set_flags n (propagate_flags (n_flags n) (n_flags n'))).
Proof.
  intros R R'. pose proof (wf_fits _ (proj2 R)) as W. pose proof (wf_fits _ (proj2 R')) as W'.
  apply R_set_flags; [exact R| |now apply keeps_propagate]. rewrite (R_flags _ _ R), (R_flags _ _ R').
  apply (DbusFlagBitsProofs.propagate_ok _ _ W W').
Qed.
Lemma R_gvar r n v : RN r n -> v < 4 ->
  rel RN (do f <- fs_set_gvar_alignment_exp (ref_flags r) v; Ok (ref_set_flags r f)) (Ok (set_flags n (set_gvar_alignment_exp (n_flags n) v))).
Proof.
  intros R V. pose proof (wf_fits _ (proj2 R)) as W. rewrite (R_flags _ _ R), (DbusFlagBitsProofs.set_gvar_ok _ _ W V). cbn [bind rel].
  apply R_set_flags; [exact R|reflexivity|now apply keeps_gvar].
Qed.

(** The packed fields of a Node8: values of a byte that do not fit are refused,
    except for lengths of 64 and above. *)
Lemma ldiff_ge o : 32 <= o -> N.ldiff o 31 =? 0 = false.
Proof.
  intros H. apply N.eqb_neq. intros E. assert (L : o = N.land o 31).
  { apply N.bits_inj. intros n. assert (T : N.testbit (N.ldiff o 31) n = false) by (rewrite E; apply N.bits_0).
    rewrite N.ldiff_spec in T. rewrite N.land_spec. destruct (N.testbit o n), (N.testbit 31 n); cbn in *; congruence. }
  rewrite L in H. change 31 with (N.ones 5) in H. rewrite N.land_ones in H. pose proof (N.mod_lt o (2 ^ 5) ltac:(discriminate)). change (2 ^ 5) with 32 in *. lia.
Qed.
Lemma ldiff_shift o s : 32 <= o -> N.ldiff (N.shiftl o s) (N.shiftl 31 s) =? 0 = false.
Proof.
  intros H. apply N.eqb_neq. intros E. pose proof (ldiff_ge o H) as L. apply N.eqb_neq in L. apply L.
  rewrite <- N.shiftl_ldiff in E. apply N.shiftl_eq_0_iff in E. exact E.
Qed.
Lemma opl_panic o p l : o < 256 -> p < 256 -> l < 64 -> ~ (o < 32 /\ p < 32 /\ l < 32) -> opl o p l = Panic.
Proof.
  intros Ho Hp Hl H. unfold opl, and_not.
  rewrite !N.mod_small by (rewrite ?N.shiftl_mul_pow2; change (2 ^ 0) with 1; change (2 ^ 5) with 32; change (2 ^ 10) with 1024; change (2 ^ 16) with 65536; lia).
  destruct (N.lt_ge_cases o 32) as [Lo|Lo]; [|now rewrite ldiff_shift].
  destruct (N.ldiff (N.shiftl o 0) (N.shiftl 31 0) =? 0); [|reflexivity].
  destruct (N.lt_ge_cases p 32) as [Lp|Lp]; [|now rewrite ldiff_shift].
  destruct (N.ldiff (N.shiftl p 5) (N.shiftl 31 5) =? 0); [|reflexivity].
  destruct (N.lt_ge_cases l 32) as [Ll|Ll]; [exfalso; apply H; auto|now rewrite ldiff_shift].
Qed.
Lemma sim_with e o p : o <= int_max k -> p <= int_max k -> rel RN (ref_with (node_id k) e o p) (node_with k e o p).
Proof.
  intros Ho Hp.
  destruct (DbusFlagBitsProofs.table e) as (fl & _ & W & _).
  assert (Id : node_id k < 4) by (destruct Hk as [-> | ->]; reflexivity).
  pose proof (DbusFlagBitsProofs.set_node_ok _ (node_id k) W Id) as SN.
  assert (NF : forall r, r = mkNode (set_node (e_flags e) (node_id k)) o p 1 (e_dvar_size e) (e_gvar_size e) ->
               o <= field_max k -> p <= field_max k -> node_fits k r).
  { intros r -> A B. unfold node_fits. cbn [n_flags n_offset n_position n_length n_dvar_size n_gvar_size].
    assert (D : e_dvar_size e <= 8 /\ e_gvar_size e <= 8) by (destruct e; vm_compute; split; discriminate).
    destruct W as (_ & W2 & W3). split; [destruct (e_flags e); reflexivity|].
    split; [destruct (e_flags e); exact W2|]. split; [destruct (e_flags e); exact W3|].
    destruct Hk as [-> | ->]; cbn [field_max int_max node8 node64] in *; lia. }
  unfold ref_with, node_with, RN. destruct Hk as [-> | ->]; cbn [node_id node8 node64 N.eqb field_max int_max] in *.
  - destruct (N.lt_ge_cases o 32) as [Lo|Lo]; [destruct (N.lt_ge_cases p 32) as [Lp|Lp]|].
    + destruct (DbusFlagBitsProofs.opl_ok o p 1 Lo Lp eq_refl) as (w & E & _). rewrite E. cbn [bind]. rewrite SN. cbn [bind].
      rewrite !(proj2 (N.leb_le _ _)) by lia. cbn [rel]. split.
      * unfold to_ref. cbn [node_id node8 N.eqb n_flags n_offset n_position n_length n_dvar_size n_gvar_size]. now rewrite E.
      * apply NF; [reflexivity|lia|lia].
    + rewrite opl_panic by lia. rewrite (proj2 (N.leb_le o _)) by lia. rewrite (proj2 (N.leb_gt p _)) by lia. exact I.
    + rewrite opl_panic by lia. rewrite (proj2 (N.leb_gt o _)) by lia. exact I.
  - rewrite SN. cbn [bind]. rewrite !(proj2 (N.leb_le _ _)) by lia. cbn [rel]. split; [reflexivity|]. apply NF; [reflexivity|lia|lia].
Qed.
(** The sum of two lengths. *)
Lemma sim_set_length r n l : RN r n -> l <= int_max k -> l <= 2 * field_max k -> rel RN (ref_set_length r l) (set_length k n l).
Proof.
  intros R Hl H2. pose proof (R_offset _ _ R) as EO. pose proof (R_position _ _ R) as EP. destruct R as [-> F].
  destruct F as (F1 & F2 & F3 & F4 & F5 & F6 & F7 & F8). unfold set_length, RN.
  assert (NF : l <= field_max k -> node_fits k (mkNode (n_flags n) (n_offset n) (n_position n) l (n_dvar_size n) (n_gvar_size n))).
  { intros L. unfold node_fits. cbn [n_flags n_offset n_position n_length n_dvar_size n_gvar_size]. repeat split; assumption. }
  unfold RN, to_ref in *. destruct Hk as [-> | ->]; cbn [node_id node8 node64 N.eqb field_max int_max ref_set_length ref_offset ref_position] in *.
  - rewrite EO, EP. destruct (N.leb_spec l 31) as [L|L].
    + destruct (DbusFlagBitsProofs.opl_ok (n_offset n) (n_position n) l) as (w & E & _); [lia..|]. rewrite E. cbn [bind rel].
      split; [|apply NF; exact L]. unfold to_ref. cbn [node_id node8 N.eqb n_flags n_offset n_position n_length n_dvar_size n_gvar_size]. now rewrite E.
    + rewrite opl_panic by lia. exact I.
  - rewrite (proj2 (N.leb_le _ _)) by lia. cbn [rel]. split; [reflexivity|]. apply NF. lia.
Qed.
Lemma sim_add_length r n r' n' : RN r n -> RN r' n' ->
  rel RN (do l <- strict_add k (ref_length r) (ref_length r'); ref_set_length r l) (do l <- strict_add k (n_length n) (n_length n'); set_length k n l).
Proof.
  intros R R'. rewrite (R_length _ _ R), (R_length _ _ R'). apply rel_same. intros l E. unfold strict_add in E.
  destruct (N.leb_spec (n_length n + n_length n') (int_max k)) as [L|]; [|discriminate]. injection E as <-.
  apply sim_set_length; [exact R|exact L|]. pose proof (proj2 R) as F. pose proof (proj2 R') as F'.
  assert (n_length n <= field_max k) by apply F. assert (n_length n' <= field_max k) by apply F'. lia.
Qed.
Lemma bind_assoc {A B C} (x : res A) (f : A -> res B) (g : B -> res C) : bind (bind x f) g = bind x (fun a => bind (f a) g).
Proof. destruct x; reflexivity. Qed.

(** * The steps of the parser *)
Lemma sim_goto idx ws b : RB ws b -> rel eq (w_parse_goto big k idx ws) (parse_goto idx b).
Proof.
  intros R. unfold w_parse_goto, parse_goto. eapply rel_bind; [now apply sim_rd|]. intros r n RR. rewrite (R_offset _ _ RR).
  destruct (n_offset n =? 0); [reflexivity|]. apply rel_same. intros u _. eapply rel_bind; [now apply sim_rd|]. intros ? ? _. reflexivity.
Qed.
Definition RP (x : NodeRef * NodeRef) (y : Node * Node) : Prop := RN (fst x) (fst y) /\ RN (snd x) (snd y).
Lemma sim_merge r n r' n' : RN r n -> RN r' n' -> rel RP (w_merge k r r') (merge k n n').
Proof.
  intros R R'. unfold w_merge, merge.
  rewrite <- (bind_assoc (strict_add k (ref_length r') (ref_length r)) (ref_set_length r')).
  rewrite <- (bind_assoc (strict_add k (n_length n') (n_length n)) (set_length k n')).
  eapply rel_bind; [now apply sim_add_length|]. clear r' n' R'. intros u m RU. cbv zeta.
  set (r1 := if 3 <=? fs_dvar_alignment_exp (ref_flags r) then _ else r).
  set (n1 := if 3 <=? f_dvar_alignment_exp (n_flags n) then _ else n).
  assert (R1 : RN r1 n1).
  { subst r1 n1. destruct (R_reads _ _ R) as (-> & _). destruct (3 <=? _); [|exact R]. apply (R_put_misaligned r n false R). }
  clearbody r1 n1. clear r n R. rename r1 into r, n1 into n, R1 into R.
  set (u1 := if fs_dvar_alignment_exp (ref_flags u) <? fs_dvar_alignment_exp (ref_flags r) then _ else u).
  set (m1 := if f_dvar_alignment_exp (n_flags m) <? f_dvar_alignment_exp (n_flags n) then _ else m).
  assert (RU1 : RN u1 m1).
  { subst u1 m1. destruct (R_reads _ _ RU) as (-> & _). destruct (R_reads _ _ R) as (-> & _). destruct (_ <? _); [|exact RU]. apply (R_put_misaligned u m true RU). }
  clearbody u1 m1. clear u m RU. rename u1 into u, m1 into m, RU1 into RU.
  destruct (R_reads _ _ R) as (_ & -> & _ & _ & _ & ->). rewrite (proj1 (proj2 (R_reads _ _ RU))).
  set (m1 := if f_gvar_alignment_exp (n_flags m) <? f_gvar_alignment_exp (n_flags n) then _ else m).
  apply (rel_left RN _ _ m1).
  { subst m1. destruct (_ <? _); [|exact RU]. apply R_gvar; [exact RU|]. apply (wf_fits _ (proj2 R)). }
  clearbody m1. clear u m RU. intros u RU. rename m1 into m. pose proof (R_propagate u m r n RU R) as RQ.
  set (u2 := ref_set_flags u _) in *. set (m2 := set_flags m _) in *. clearbody u2 m2.
  destruct (R_reads _ _ RQ) as (_ & _ & _ & _ & -> & _). rewrite (R_position _ _ R). cbn [rel]. split; [exact R|]. cbn [snd].
  destruct (_ && _); [|exact RQ]. now apply R_clear_dict.
Qed.
Lemma sim_merge_size r n r' n' : RN r n -> RN r' n' -> rel RN (w_merge_size k r r') (merge_size k n n').
Proof.
  intros R R'. unfold w_merge_size, merge_size.
  rewrite (R_dvar_size _ _ R), (R_gvar_size _ _ R), (R_dvar_size _ _ R'), (R_gvar_size _ _ R').
  destruct (R_reads _ _ R) as (-> & -> & _). apply rel_same. intros d0 _. apply rel_same. intros d Ed. apply rel_same. intros g0 _. apply rel_same. intros g Eg.
  cbn [rel]. destruct R' as [-> F]. split; [symmetry; apply to_ref_sizes|].
  unfold strict_add in Ed, Eg. destruct (N.leb_spec (d0 + n_dvar_size n) (int_max k)); [|discriminate]. destruct (N.leb_spec (g0 + n_gvar_size n) (int_max k)); [|discriminate].
  injection Ed as <-. injection Eg as <-. destruct F as (F1 & F2 & F3 & F4 & F5 & F6 & _).
  unfold node_fits. cbn [set_sizes n_flags n_offset n_position n_length n_dvar_size n_gvar_size]. repeat split; assumption.
Qed.
Definition R3 (x : option N * N * wbuffer) (y : option N * N * buffer) : Prop :=
  fst x = fst y /\ RB (snd x) (snd y).
Lemma sim_propagate fuel : forall this_idx o_up_idx o_up position ws b, RB ws b ->
  rel R3 (w_propagate big k fuel this_idx o_up_idx o_up position ws) (propagate k fuel this_idx o_up_idx o_up position b).
Proof.
  induction fuel as [|fuel IH]; intros this_idx o_up_idx o_up position ws b R; cbn [w_propagate propagate].
  { destruct o_up; [exact I|]. split; [reflexivity|exact R]. }
  destruct o_up as [up_idx|]; [|split; [reflexivity|exact R]].
  eapply rel_bind; [now apply sim_rd|]. intros r n Rr. eapply rel_bind; [now apply sim_rd|]. intros u m Ru.
  eapply rel_bind; [apply (sim_merge _ _ _ _ Rr Ru)|]. clear r n u m Rr Ru. intros [r u] [n m] [Rr Ru]. cbn [fst snd] in *.
  eapply rel_bind; [now apply sim_wr|]. clear ws b R. intros ws b R.
  eapply rel_bind; [now apply sim_wr|]. clear ws b R. intros ws b R.
  rewrite (R_element _ _ Ru). cbn [bind]. destruct (R_reads _ _ Ru) as (_ & _ & -> & _).
  destruct (f_open (n_flags m) && negb (is_some (e_pair (n_element m)))).
  - destruct o_up_idx as [i|]; [|exact I]. eapply rel_bind; [now apply sim_goto|]. intros [ti oi] ? <-.
    eapply rel_bind; [now apply sim_rd|]. intros r' n' R'. rewrite (R_position _ _ R'). apply rel_same. intros p _. now apply IH.
  - eapply (rel_bind RN). { destruct (_ && _); [now apply sim_merge_size|exact Ru]. }
    clear u m Ru. intros u m Ru. eapply rel_bind; [now apply sim_wr|]. clear ws b R. intros ws b R. split; [reflexivity|exact R].
Qed.
Definition RS (x : wstate) (y : state) : Prop :=
  wst_position x = st_position y /\ wst_up x = st_up y /\ RB (wst_words x) (st_nodes y).
Inductive RO : woutcome -> outcome -> Prop :=
| RO_go x y : RS x y -> RO (WGo x) (Go y)
| RO_done ws b : RB ws b -> RO (WDone ws) (Done b)
| RO_fail e : RO (WFail e) (Fail e).
Lemma sim_completed len si ti oi ou p ws b : RB ws b ->
  rel RO (w_completed big k len si ti oi ou p ws) (completed k len si ti oi ou p b).
Proof.
  intros R. unfold w_completed, completed. eapply rel_bind; [now apply sim_propagate|].
  intros [[oi' p'] ws'] [[oi'' p''] b'] [E R']. cbn [fst snd] in *. injection E as <- <-.
  destruct oi'; [constructor; split; [reflexivity|split; [reflexivity|exact R']]|].
  destruct (negb _); constructor. exact R'.
Qed.
Definition R4 (x : Error + (N * option N * N * wbuffer)) (y : Error + (N * option N * N * buffer)) : Prop :=
  match x, y with
  | inl e, inl e' => e = e'
  | inr (p, ws), inr (p', b) => p = p' /\ RB ws b
  | _, _ => False
  end.
Lemma sim_close ti ou p ws b : RB ws b -> rel R4 (w_close big k ti ou p ws) (close k ti ou p b).
Proof.
  intros R. unfold w_close, close. destruct ou as [up_idx|]; [|reflexivity].
  eapply rel_bind; [now apply sim_rd|]. intros r n Rr. eapply rel_bind; [now apply sim_rd|]. intros u m Ru.
  rewrite (R_element _ _ Rr), (R_element _ _ Ru). cbn [bind].
  destruct (e_pair (n_element n)) as [ex|]; [|exact I].
  destruct (negb _). { rewrite (R_offset _ _ Ru). apply rel_same. intros i _. reflexivity. }
  cbv zeta.
  set (r1 := match n_element n with EStructClose => if p =? 1 then ref_set_flags r _ else r | _ => r end).
  set (n1 := match n_element n with EStructClose => if p =? 1 then set_flags n _ else n | _ => n end).
  assert (R1 : RN r1 n1).
  { subst r1 n1. destruct (n_element n); try exact Rr. destruct (p =? 1); [|exact Rr]. now apply R_unsupported. }
  assert (E1 : n_element n1 = n_element n).
  { clear R1. subst r1 n1. destruct (n_element n) eqn:EN; try exact EN. destruct (p =? 1); [|exact EN]. destruct n as [[] ? ? ? ? ?]. exact EN. }
  set (u1 := if fs_all (ref_flags u) FLAG_DICT && _ then _ else u).
  set (m1 := if f_dict (n_flags m) && _ then _ else m).
  assert (RU1 : RN u1 m1).
  { subst u1 m1. destruct (R_reads _ _ Ru) as (_ & _ & _ & _ & -> & _). destruct (_ && _); [|exact Ru]. now apply R_clear_dict. }
  rewrite E1. clearbody r1 n1 u1 m1. 
  destruct (R_reads _ _ RU1) as (_ & _ & _ & _ & -> & _). rewrite (R_offset _ _ R1).
  apply rel_same. intros [q|] _; [reflexivity|].
  rewrite <- (bind_assoc (strict_add k (ref_length u1) (ref_length r1)) (ref_set_length u1)).
  rewrite <- (bind_assoc (strict_add k (n_length m1) (n_length n1)) (set_length k m1)).
  eapply rel_bind; [now apply sim_add_length|]. clear u1 m1 RU1. intros u1 m1 RU1.
  eapply rel_bind; [now apply sim_wr|]. clear ws b R. intros ws b R.
  eapply rel_bind; [now apply sim_wr|]. clear ws b R. intros ws b R.
  apply rel_same. intros i _. eapply rel_bind; [now apply sim_goto|]. intros [ti' oi'] ? <-.
  eapply rel_bind; [now apply sim_rd|]. intros r' n' R'. rewrite (R_position _ _ R'). apply rel_same. intros q _. split; [reflexivity|exact R].
Qed.
Lemma sim_iteration len si c x y : RS x y -> si <= int_max k -> st_position y <= int_max k ->
  rel RO (w_iteration big k len si c x) (iteration k len si c y).
Proof.
  intros (E1 & E2 & R) Hs Hp. unfold w_iteration, iteration. destruct (negb _); [constructor|]. destruct (from_code c) as [e|]; [|constructor].
  cbv zeta. rewrite E1, E2. apply rel_same. intros o Eo.
  assert (Ho : o <= int_max k).
  { destruct (st_up y) as [v|]; [|injection Eo as <-; exact Hs]. unfold strict_sub in Eo. destruct (v <=? si); [|discriminate]. injection Eo as <-. lia. }
  eapply rel_bind; [now apply sim_with|]. intros r n Rr.
  eapply rel_bind; [now apply sim_wr|]. clear R. intros ws b R.
  eapply rel_bind; [now apply sim_goto|]. intros [ti ou] ? <-. apply rel_same. intros p Ep.
  eapply rel_bind; [now apply sim_rd|]. intros r' n' R'. destruct (R_reads _ _ R') as (_ & _ & -> & -> & _).
  destruct (f_open _). { constructor. split; [reflexivity|split; [reflexivity|exact R]]. }
  destruct (f_close _); [|now apply sim_completed].
  eapply rel_bind; [now apply sim_close|]. intros [e1|[[[ti1 oi1] p1] ws1]] [e2|[[[ti2 oi2] p2] b2]] RR; cbn [R4] in RR; try contradiction.
  - subst e2. constructor.
  - destruct RR as [E RR]. injection E as <- <- <-. now apply sim_completed.
Qed.
(** A position never leaves the range of the integer type. *)
Lemma propagate_position fuel : forall ti oi ou p b oi' p' b', p <= int_max k ->
  propagate k fuel ti oi ou p b = Ok (oi', p', b') -> p' <= int_max k.
Proof.
  induction fuel as [|fuel IH]; intros ti oi ou p b oi' p' b' Hp; cbn [propagate]; destruct ou as [up|]; try discriminate; try congruence.
  destruct (rd b ti) as [n| |]; cbn [bind]; try discriminate. destruct (rd b up) as [m| |]; cbn [bind]; try discriminate.
  destruct (merge k n m) as [[n1 m1]| |]; cbn [bind]; try discriminate.
  destruct (wr b ti n1) as [b1| |]; cbn [bind]; try discriminate. destruct (wr b1 up m1) as [b2| |]; cbn [bind]; try discriminate.
  destruct (_ && _).
  - destruct oi as [i|]; [|discriminate]. destruct (parse_goto i b2) as [[ti2 oi2]| |]; cbn [bind]; try discriminate.
    destruct (rd b2 ti2) as [n2| |]; cbn [bind]; try discriminate. destruct (strict_add k (n_position n2) 1) as [q| |] eqn:Q; cbn [bind]; try discriminate.
    apply IH. unfold strict_add in Q. destruct (N.leb_spec (n_position n2 + 1) (int_max k)); [|discriminate]. injection Q as <-. assumption.
  - match goal with |- bind ?X _ = _ -> _ => destruct X as [m2| |]; cbn [bind]; try discriminate end.
    destruct (wr b2 up m2) as [b3| |]; cbn [bind]; try discriminate. congruence.
Qed.
Lemma completed_position len si ti oi ou p b s : p <= int_max k -> completed k len si ti oi ou p b = Ok (Go s) -> st_position s <= int_max k.
Proof.
  intros Hp. unfold completed. destruct (propagate _ _ _ _ _ _ _) as [[[oi' p'] b']| |] eqn:E; cbn [bind]; try discriminate.
  apply propagate_position in E; [|exact Hp]. destruct oi'; [|destruct (negb _); discriminate]. intros H. injection H as <-. exact E.
Qed.
Lemma close_position ti ou p b ti' oi' p' b' : close k ti ou p b = Ok (inr (ti', oi', p', b')) -> p' <= int_max k.
Proof.
  unfold close. destruct ou as [up|]; [|discriminate]. destruct (rd b ti) as [n| |]; cbn [bind]; try discriminate. destruct (rd b up) as [m| |]; cbn [bind]; try discriminate.
  destruct (e_pair _); [|discriminate]. destruct (negb _). { destruct (strict_sub _ _); cbn [bind]; discriminate. }
  cbv zeta. match goal with |- bind ?X _ = _ -> _ => destruct X as [[q|]| |]; cbn [bind]; try discriminate end.
  match goal with |- bind ?X _ = _ -> _ => destruct X as [l| |]; cbn [bind]; try discriminate end.
  match goal with |- bind ?X _ = _ -> _ => destruct X as [m2| |]; cbn [bind]; try discriminate end.
  match goal with |- bind ?X _ = _ -> _ => destruct X as [b2| |]; cbn [bind]; try discriminate end.
  match goal with |- bind ?X _ = _ -> _ => destruct X as [b3| |]; cbn [bind]; try discriminate end.
  match goal with |- bind ?X _ = _ -> _ => destruct X as [i| |]; cbn [bind]; try discriminate end.
  match goal with |- bind ?X _ = _ -> _ => destruct X as [[ti2 oi2]| |]; cbn [bind]; try discriminate end.
  match goal with |- bind ?X _ = _ -> _ => destruct X as [n2| |]; cbn [bind]; try discriminate end.
  destruct (strict_add k (n_position n2) 1) as [q| |] eqn:Q; cbn [bind]; try discriminate. intros H. injection H as _ _ <- _.
  unfold strict_add in Q. destruct (N.leb_spec (n_position n2 + 1) (int_max k)); [|discriminate]. injection Q as <-. assumption.
Qed.
Lemma iteration_position len si c y s : iteration k len si c y = Ok (Go s) -> st_position s <= int_max k.
Proof.
  unfold iteration. destruct (negb _); [discriminate|]. destruct (from_code c) as [e|]; [|discriminate]. cbv zeta.
  match goal with |- bind ?X _ = _ -> _ => destruct X as [o| |]; cbn [bind]; try discriminate end.
  match goal with |- bind ?X _ = _ -> _ => destruct X as [n| |]; cbn [bind]; try discriminate end.
  match goal with |- bind ?X _ = _ -> _ => destruct X as [b| |]; cbn [bind]; try discriminate end.
  match goal with |- bind ?X _ = _ -> _ => destruct X as [[ti ou]| |]; cbn [bind]; try discriminate end.
  destruct (strict_add k (st_position y) 1) as [q| |] eqn:Q; cbn [bind]; try discriminate.
  assert (Hq : q <= int_max k). { unfold strict_add in Q. destruct (N.leb_spec (st_position y + 1) (int_max k)); [|discriminate]. injection Q as <-. assumption. }
  match goal with |- bind ?X _ = _ -> _ => destruct X as [n'| |]; cbn [bind]; try discriminate end.
  destruct (f_open _). { intros H. injection H as <-. cbn [st_position]. lia. }
  destruct (f_close _); [|now apply completed_position].
  destruct (close k si ou q b) as [[e'|[[[ti' oi'] p'] b']]| |] eqn:C; cbn [bind]; try discriminate. apply completed_position. eapply close_position. exact C.
Qed.
Definition R5 (x : Error + wbuffer) (y : Error + buffer) : Prop :=
  match x, y with
  | inl e, inl e' => e = e'
  | inr ws, inr b => RB ws b
  | _, _ => False
  end.
Lemma sim_loop len rest : forall si x y, RS x y -> si + N.of_nat (length rest) <= int_max k -> st_position y <= int_max k ->
  rel R5 (w_parse_loop big k len si rest x) (parse_loop k len si rest y).
Proof.
  induction rest as [|c rest IH]; intros si x y R Hs Hp; cbn [w_parse_loop parse_loop].
  - destruct R as (_ & -> & _). destruct (st_up y); [reflexivity|exact I].
  - pose proof (sim_iteration len si c x y R ltac:(lia) Hp) as S. pose proof (iteration_position len si c y) as P.
    destruct (w_iteration big k len si c x) as [o| |], (iteration k len si c y) as [o'| |]; cbn [rel bind] in *; try contradiction; auto.
    destruct S as [x' y' S|ws b S|e]; [|exact S|reflexivity].
    apply IH; [exact S| |now apply P]. cbn [length] in Hs. lia.
Qed.
Lemma sim_node_parse ws b text : RB ws b -> rel R5 (w_node_parse big k ws text) (node_parse k b text).
Proof.
  intros R. unfold w_node_parse, node_parse. destruct (N.ltb_spec (length_max k) (N.of_nat (length text))) as [|L]; [reflexivity|].
  destruct (_ <? 1); [reflexivity|]. apply sim_loop.
  - split; [reflexivity|split; [reflexivity|exact R]].
  - assert (length_max k <= int_max k) by (unfold length_max; apply N.div_le_upper_bound; lia). lia.
  - cbn. lia.
Qed.
End K.
