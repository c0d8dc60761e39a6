(** The properties of parsed signatures, in terms of their text. *)
From Coq Require Import Ascii.
From Verif Require Import Base DbusSigModel DbusSpec DbusSigAnnot DbusSigProofs DbusSigRefine DbusSigSpec DbusSigTheory DbusObs DbusCursorProofs DbusCursorQueries.
Local Open Scope N_scope.
Local Open Scope res_scope.

Lemma sig_new_bound fuel s r : sig_new fuel s = Ok r -> size s < 2 ^ 61.
Proof.
  unfold sig_new, size_for_length. fold (size s). change (length_max node8) with 31.
  change (length_max node64) with (2 ^ 61 - 1).
  destruct (N.leb_spec (size s) 31) as [L|L]; [intros _; apply N.le_lt_trans with 31; [exact L|reflexivity]|].
  destruct (N.leb_spec (size s) (2 ^ 61 - 1)) as [L'|L']; [intros _; lia|cbn [bind]; discriminate].
Qed.
Lemma sig_new_sig fuel s sg : sig_new fuel s = Ok (inr sg) ->
  exists t, s = print t /\ is_sig t sg /\ s_kind sg = kind_for s.
Proof.
  intros H. pose proof (sig_new_bound _ _ _ H) as B. rewrite (sig_new_ok fuel s B) in H.
  pose proof (srun_sound (size s) s [] eq_refl) as S. cbn [prefix app] in S.
  destruct (srun (size s) [] s) as [e|t]; [discriminate|]. injection H as <-.
  exists t. split; [exact S|]. split; [|reflexivity].
  eapply is_sig_intro with (k := kind_for s) (r := root (node_id (kind_for s)) t 0 0).
  - unfold kind_for. destruct (size s <=? 31); [left|right]; reflexivity.
  - exists 0, 0. left. reflexivity.
  - reflexivity.
Qed.
Lemma sig_new_print fuel t : len t < 2 ^ 61 -> exists sg, sig_new fuel (print t) = Ok (inr sg) /\ is_sig t sg.
Proof.
  intros H. pose proof (sig_new_ok fuel (print t) H) as E. rewrite srun_accepts in E.
  eexists. split; [exact E|]. destruct (sig_new_sig _ _ _ E) as [t' [P [I _]]].
  apply print_inj in P. subst t'. exact I.
Qed.

(** ** C13 *)
Lemma accepts_exactly fuel s : size s < 2 ^ 61 ->
  (exists sg, sig_new fuel s = Ok (inr sg)) <-> (exists t, s = print t).
Proof.
  intros H. split.
  - intros [sg E]. destruct (sig_new_sig _ _ _ E) as [t [P _]]. exists t. exact P.
  - intros [t ->]. destruct (sig_new_print fuel t H) as [sg [E _]]. exists sg. exact E.
Qed.

(** ** C14 *)
Lemma is_sig_elements t sg : is_sig t sg -> exists l, sig_elements sg = Ok l /\ map e_code l = print t.
Proof.
  intros [k r Hk Hr ->]. eexists. split; [apply (elements_ok k Hk t r Hr)|].
  rewrite map_map. apply (codes_ns k t r Hr).
Qed.
Lemma text_round_trip fuel s sg : sig_new fuel s = Ok (inr sg) -> sig_to_string sg = Ok s.
Proof.
  intros E. destruct (sig_new_sig _ _ _ E) as [t [-> [I _]]].
  destruct (is_sig_elements t sg I) as [l [El Ec]]. unfold sig_to_string. rewrite El. cbn [bind]. rewrite Ec. reflexivity.
Qed.
Lemma e_id_code e e' : e_id e = e_id e' -> e_code e = e_code e'.
Proof. destruct e, e'; vm_compute; intros H; try reflexivity; discriminate H. Qed.
Lemma e_code_id e e' : e_code e = e_code e' -> e_id e = e_id e'.
Proof. destruct e, e'; vm_compute; intros H; try reflexivity; discriminate H. Qed.
Lemma ids_codes l l' : map e_id l = map e_id l' <-> map e_code l = map e_code l'.
Proof.
  revert l'. induction l as [|a l IH]; intros [|b l']; cbn [map]; split; intros H; try reflexivity; try discriminate.
  - injection H as H1 H2. f_equal; [apply e_id_code, H1|apply IH, H2].
  - injection H as H1 H2. f_equal; [apply e_code_id, H1|apply IH, H2].
Qed.
Lemma list_eqb_eq a : forall b, list_eqb a b = true <-> a = b.
Proof.
  induction a as [|x a IH]; intros [|y b]; cbn [list_eqb]; split; intros H; try reflexivity; try discriminate.
  - apply andb_true_iff in H. destruct H as [H1 H2]. apply N.eqb_eq in H1. apply IH in H2. congruence.
  - injection H as -> ->. rewrite N.eqb_refl. apply IH. reflexivity.
Qed.
Lemma list_cmp_lt a : forall b, match list_cmp a b with Eq => a = b | Lt => text_lt a b | Gt => text_lt b a end.
Proof.
  induction a as [|x a IH]; intros [|y b]; cbn [list_cmp]; try constructor.
  destruct (N.compare_spec x y) as [->|H|H].
  - specialize (IH b). destruct (list_cmp a b); [congruence|constructor; exact IH..].
  - constructor. exact H.
  - constructor. exact H.
Qed.
Lemma text_lt_irrefl a : ~ text_lt a a.
Proof. induction a as [|x a IH]; intros H; inversion H; subst; [lia|auto]. Qed.
Lemma text_lt_trans a b c : text_lt a b -> text_lt b c -> text_lt a c.
Proof.
  intros H. revert c. induction H as [y s|x s y s' L|x s s' H IH]; intros c H'; inversion H'; subst;
    try (constructor; lia); try (constructor; auto; fail).
Qed.
Lemma eq_is_text fuel a b A B : sig_new fuel a = Ok (inr A) -> sig_new fuel b = Ok (inr B) ->
  exists v, sig_eq A B = Ok v /\ (v = true <-> a = b).
Proof.
  intros EA EB. destruct (sig_new_sig _ _ _ EA) as [t [-> [IA _]]]. destruct (sig_new_sig _ _ _ EB) as [u [-> [IB _]]].
  destruct (is_sig_elements t A IA) as [l [El Ec]]. destruct (is_sig_elements u B IB) as [l' [El' Ec']].
  unfold sig_eq. rewrite El, El'. cbn [bind]. eexists. split; [reflexivity|].
  rewrite list_eqb_eq, ids_codes, Ec, Ec'. reflexivity.
Qed.
Lemma cmp_is_text fuel a b A B : sig_new fuel a = Ok (inr A) -> sig_new fuel b = Ok (inr B) ->
  exists v, sig_cmp A B = Ok v /\ (v = Eq <-> a = b) /\ (v = Lt <-> text_lt a b) /\ (v = Gt <-> text_lt b a).
Proof.
  intros EA EB. destruct (sig_new_sig _ _ _ EA) as [t [-> [IA _]]]. destruct (sig_new_sig _ _ _ EB) as [u [-> [IB _]]].
  destruct (is_sig_elements t A IA) as [l [El Ec]]. destruct (is_sig_elements u B IB) as [l' [El' Ec']].
  unfold sig_cmp. rewrite El, El'. cbn [bind]. eexists. split; [reflexivity|].
  rewrite Ec, Ec'. generalize (print t), (print u). clear. intros a b.
  pose proof (list_cmp_lt a b) as H. destruct (list_cmp a b).
  - subst b. repeat split; intros; try discriminate; exfalso; eapply text_lt_irrefl; eassumption.
  - repeat split; intros; try discriminate; try assumption; exfalso.
    + subst b. eapply text_lt_irrefl; eassumption.
    + eapply text_lt_irrefl, text_lt_trans; eassumption.
  - repeat split; intros; try discriminate; try assumption; exfalso.
    + subst b. eapply text_lt_irrefl; eassumption.
    + eapply text_lt_irrefl, text_lt_trans; eassumption.
Qed.
Lemma hash_is_text fuel a b A B : sig_new fuel a = Ok (inr A) -> sig_new fuel b = Ok (inr B) ->
  exists v w, sig_hash A = Ok v /\ sig_hash B = Ok w /\ (v = w <-> a = b).
Proof.
  intros EA EB. destruct (sig_new_sig _ _ _ EA) as [t [-> [IA _]]]. destruct (sig_new_sig _ _ _ EB) as [u [-> [IB _]]].
  destruct (is_sig_elements t A IA) as [l [El Ec]]. destruct (is_sig_elements u B IB) as [l' [El' Ec']].
  unfold sig_hash. rewrite El, El'. cbn [bind]. do 2 eexists. split; [reflexivity|]. split; [reflexivity|].
  rewrite ids_codes, Ec, Ec'. reflexivity.
Qed.

(** ** C15 *)
Lemma errors_exact fuel s e : size s < 2 ^ 61 -> sig_new fuel s = Ok (inl e) <-> rejected reported s e.
Proof.
  intros H. rewrite (sig_new_ok fuel s H). split.
  - pose proof (srun_sound (size s) s [] eq_refl) as S. cbn [prefix app] in S.
    destruct (srun (size s) [] s) as [e'|t]; intros E; [injection E as <-; exact S|discriminate].
  - intros R. rewrite (srun_rejects _ _ R). reflexivity.
Qed.
Lemma rejected_fun s e e' : rejected reported s e -> rejected reported s e' -> e = e'.
Proof. intros A B. apply srun_rejects in A, B. congruence. Qed.
(** Errors other than of mispairing do not depend on the blamed index. *)
Lemma errors_documented fuel s e : size s < 2 ^ 61 ->
  (forall i j x, e <> ElementMispaired i j x) ->
  sig_new fuel s = Ok (inl e) <-> rejected opener s e.
Proof.
  intros H N. rewrite (errors_exact fuel s e H).
  split; intros R; destruct R; try (econstructor; eassumption); exfalso; eapply N; reflexivity.
Qed.
Lemma mispaired_documented fuel s i j x : size s < 2 ^ 61 ->
  sig_new fuel s = Ok (inl (ElementMispaired i j x)) -> exists i', rejected opener s (ElementMispaired i' j x).
Proof.
  intros H E. apply (errors_exact fuel s _ H) in E.
  inversion E; subst. eexists. econstructor; [reflexivity|eassumption..].
Qed.

(** ** C16 *)
Lemma parses_always fuel s : size s < 2 ^ 61 -> exists r, sig_new fuel s = Ok r.
Proof.
  intros H. rewrite (sig_new_ok fuel s H). destruct (srun (size s) [] s); eexists; reflexivity.
Qed.
Lemma pad_loop_stuck fuel pad : 0 < pad -> pad_loop fuel 0 pad = NoFuel.
Proof.
  intros H. induction fuel as [|fuel IH]; cbn [pad_loop]; rewrite (proj2 (N.ltb_lt _ _)) by exact H; [reflexivity|exact IH].
Qed.
(** Into a buffer of any other size. *)
Lemma sig_parse_large fuel data s t : size s < 2 ^ 61 -> s = print t ->
  size s * size_coeff (kind_for s) <= data ->
  data mod size_coeff (kind_for s) <> 0 ->
  sig_parse fuel data s = NoFuel.
Proof.
  intros H -> D M. unfold sig_parse. fold (size (print t)). change (length_max node8) with 31.
  fold (kind_for (print t)).
  assert (Hc : size_coeff (kind_for (print t)) <> 0) by (unfold kind_for; destruct (size (print t) <=? 31); discriminate).
  assert (Hm : size (print t) <= length_max (kind_for (print t))).
  { unfold kind_for. destruct (N.leb_spec (size (print t)) 31).
    - assumption.
    - change (length_max node64) with (2 ^ 61 - 1). lia. }
  rewrite (node_parse_ok _ (kind_wf (print t))); [|exact Hm|].
  - rewrite srun_accepts. cbn [bind]. rewrite pad_loop_stuck by lia. reflexivity.
  - rewrite repeat_length.
    assert (size (print t) <= data / size_coeff (kind_for (print t))) by (apply N.div_le_lower_bound; lia).
    unfold size in *. lia.
Qed.
Lemma sig_parse_fits fuel data s : size s < 2 ^ 61 ->
  size s * size_coeff (kind_for s) <= data -> data mod size_coeff (kind_for s) = 0 ->
  exists r, sig_parse fuel data s = Ok r /\
    match r with
    | inl e => sig_new fuel s = Ok (inl e)
    | inr sg => exists sg', sig_new fuel s = Ok (inr sg') /\ s_kind sg = s_kind sg' /\
                  s_nodes sg = s_nodes sg' ++ repeat None (N.to_nat (data / size_coeff (kind_for s) - size s))
    end.
Proof.
  intros H D M. rewrite (sig_new_ok fuel s H). unfold sig_parse. fold (size s). change (length_max node8) with 31.
  fold (kind_for s).
  assert (Hc : size_coeff (kind_for s) <> 0) by (unfold kind_for; destruct (size s <=? 31); discriminate).
  assert (Hm : size s <= length_max (kind_for s)).
  { unfold kind_for. destruct (N.leb_spec (size s) 31).
    - assumption.
    - change (length_max node64) with (2 ^ 61 - 1). lia. }
  assert (Hd : size s <= data / size_coeff (kind_for s)) by (apply N.div_le_lower_bound; lia).
  rewrite (node_parse_ok _ (kind_wf s)); [|exact Hm|rewrite repeat_length; unfold size in *; lia].
  rewrite M. destruct (srun (size s) [] s) as [e|t]; cbn [bind].
  - eexists. split; reflexivity.
  - destruct fuel; cbn [pad_loop N.ltb N.compare bind]; (eexists; split; [reflexivity|]; cbn beta iota;
      eexists; split; [reflexivity|]; split; [reflexivity|]; cbn [s_nodes]; unfold buf; f_equal).
    all: clear - Hd; unfold size in *; set (a := N.to_nat (data / size_coeff (kind_for s)));
      replace (N.to_nat (data / size_coeff (kind_for s) - N.of_nat (length s))) with (a - length s)%nat by lia;
      assert (length s <= a)%nat by lia; generalize dependent (length s); generalize a; clear;
      induction a as [|a IH]; intros [|n]; intros L1 L2; cbn [repeat skipn Nat.sub]; try reflexivity; try lia.
    all: apply IH; lia.
Qed.

Lemma parse_fits fuel data s : size s < 2 ^ 61 ->
  forall coeff, coeff = (if size s <=? 31 then 1 else 6) ->
  size s * coeff <= data -> data mod coeff = 0 ->
  exists r, sig_parse fuel data s = Ok r /\
    match r with
    | inl e => sig_new fuel s = Ok (inl e)
    | inr sg => exists sg', sig_new fuel s = Ok (inr sg') /\ s_kind sg = s_kind sg' /\
                  s_nodes sg = s_nodes sg' ++ repeat None (N.to_nat (data / coeff - size s))
    end.
Proof.
  intros H coeff E D M.
  assert (C : coeff = size_coeff (kind_for s)) by (rewrite E; unfold kind_for; destruct (size s <=? 31); reflexivity).
  subst coeff. rewrite C in *. apply sig_parse_fits; assumption.
Qed.

(** ** C17, C18, C20, C21 *)
Lemma structure fuel t sg fs u : sig_new fuel (print t) = Ok (inr sg) -> occurs t fs u ->
  let c := mkCursor sg (index fs) in
  c_length c = Ok (Some (size (print u))) /\
  c_position c = Ok (Some (siblings_before fs)) /\
  idx_up c = Ok (container fs) /\
  idx_down c = Ok (if opens u then Some (index fs + 1) else None) /\
  idx_step c = Ok (if stepping fs then Some (index fs + size (print u)) else None) /\
  c_dvar_alignment_exp c = Ok (Some (dvar_align u)) /\
  c_gvar_alignment_exp c = Ok (Some (gvar_align u)).
Proof.
  intros E O c. destruct (sig_new_sig _ _ _ E) as [t' [P [I _]]]. apply print_inj in P. subst t'.
  unfold c, index. 
  rewrite (start_length t sg I _ _ O), (start_position t sg I _ _ O), (start_up t sg I _ _ O), (start_down t sg I _ _ O),
   (start_step t sg I _ _ O), (start_dva t sg I _ _ O), (start_gva t sg I _ _ O).
  repeat split. destruct fs as [|[] fs]; reflexivity.
Qed.
Lemma structure_start fuel t sg fs u : sig_new fuel (print t) = Ok (inr sg) -> occurs t fs u ->
  let c := mkCursor sg (index fs) in
  c_length c = Ok (Some (size (print u))) /\
  c_position c = Ok (Some (siblings_before fs)) /\
  idx_up c = Ok (container fs) /\
  idx_down c = Ok (if opens u then Some (index fs + 1) else None) /\
  idx_step c = Ok (if stepping fs then Some (index fs + size (print u)) else None).
Proof. intros E O. pose proof (structure _ _ _ _ _ E O) as H. cbv zeta in *. tauto. Qed.
Lemma alignment fuel t sg fs u : sig_new fuel (print t) = Ok (inr sg) -> occurs t fs u ->
  let c := mkCursor sg (index fs) in
  c_dvar_alignment_exp c = Ok (Some (dvar_align u)) /\ c_gvar_alignment_exp c = Ok (Some (gvar_align u)).
Proof. intros E O. pose proof (structure _ _ _ _ _ E O) as H. cbv zeta in *. tauto. Qed.
Lemma structure_close fuel t sg fs u ms : sig_new fuel (print t) = Ok (inr sg) -> occurs t fs u -> inner u = Some ms ->
  let c := mkCursor sg (index fs + size (print u) - 1) in
  c_length c = Ok (Some 1) /\ c_position c = Ok (Some (size ms)) /\ idx_up c = Ok (Some (index fs)) /\
  idx_down c = Ok None /\ idx_step c = Ok None /\ c_sub c = Ok None.
Proof.
  intros E O Hi c. destruct (sig_new_sig _ _ _ E) as [t' [P [I _]]]. apply print_inj in P. subst t'.
  assert (U : unbound u) by (destruct u; try discriminate Hi; exact Logic.I).
  assert (M : ty_members u = ms) by (destruct u; try discriminate Hi; injection Hi as <-; reflexivity).
  destruct (close_queries t sg I _ _ O U) as [_ [A2 [A3 [A4 [A5 [A6 _]]]]]]. rewrite M in A3.
  unfold c, index. fold (len u). fold (close_idx fs u). repeat split; try assumption.
  destruct I as [k r Hk Hr ->]. apply (at_close k Hk t r Hr fs u O U).
Qed.
Lemma structure_past fuel s sg i : sig_new fuel s = Ok (inr sg) -> size s <= i ->
  let c := mkCursor sg i in
  c_element c = Ok None /\ c_length c = Ok None /\ c_position c = Ok None /\ idx_up c = Ok None /\
  idx_down c = Ok None /\ idx_step c = Ok None /\
  c_dvar_alignment_exp c = Ok None /\ c_gvar_alignment_exp c = Ok None /\ c_sub c = Ok None.
Proof.
  intros E H. destruct (sig_new_sig _ _ _ E) as [t [-> [I _]]]. apply (past_queries t sg I i H).
Qed.
Lemma element_is_text fuel s sg i : sig_new fuel s = Ok (inr sg) ->
  exists e, c_element (mkCursor sg i) = Ok e /\ option_map e_code e = nth_error s (N.to_nat i).
Proof.
  intros E. destruct (sig_new_sig _ _ _ E) as [t [-> [I _]]]. apply (element_text t sg I).
Qed.
Lemma index_cases t i : i < size (print t) ->
  exists fs u, occurs t fs u /\ (i = index fs \/ inner u <> None /\ i + 1 = index fs + size (print u)).
Proof.
  intros H. destruct (occ_total t i H) as [fs [u [O [->|[U E]]]]]; exists fs, u; (split; [exact O|]); [left; reflexivity|right].
  split; [destruct u; try destruct U; discriminate|exact E].
Qed.

Lemma len_partial fuel s sg : sig_new fuel s = Ok (inr sg) ->
  sig_len sg = Ok (if size s <=? 31 then size s else 6 * size s).
Proof.
  intros E. destruct (sig_new_sig _ _ _ E) as [t [-> [I K]]].
  destruct (sig_len_ok t sg I) as [m [_ [M8 [M64 ->]]]]. unfold kind_for in K. fold (len t) in *.
  destruct (len t <=? 31); [rewrite (M8 K)|rewrite (M64 K)]; f_equal; lia.
Qed.

Lemma moves_total fuel s sg ms i : sig_new fuel s = Ok (inr sg) ->
  exists j, do_moves (mkCursor sg i) ms = Ok (mkCursor sg j) /\
    (i <= size s -> (size s <= 31 \/ ~ In Next ms) -> j <= size s).
Proof.
  intros E. destruct (sig_new_sig _ _ _ E) as [t [-> [I K]]].
  destruct (moves_ok t sg I ms i) as [j [Ej [_ B]]]. exists j. split; [exact Ej|].
  intros Hi Hn. apply B; [exact Hi|]. destruct Hn as [Hn|Hn]; [left|right; exact Hn].
  rewrite K. unfold kind_for. rewrite (proj2 (N.leb_le _ _)) by exact Hn. reflexivity.
Qed.
Lemma next_prev fuel s sg i : sig_new fuel s = Ok (inr sg) -> i < size s ->
  idx_next (mkCursor sg i) = Ok (Some (i + 1)) /\ idx_prev (mkCursor sg (i + 1)) = Some i.
Proof.
  intros E H. unfold idx_next, idx_prev. cbn [c_sig c_idx]. rewrite (len_partial _ _ _ E). cbn [bind].
  split.
  - f_equal. destruct (size s <=? 31); rewrite (proj2 (N.ltb_lt _ _)) by lia; reflexivity.
  - rewrite (proj2 (N.ltb_lt _ _)) by lia. f_equal. lia.
Qed.
(** Walking over the members of a struct or dict. *)
Lemma walk fuel t sg fs u ms : sig_new fuel (print t) = Ok (inr sg) -> occurs t fs u -> inner u = Some ms ->
  forall n, (n <= length ms)%nat ->
  do_moves (mkCursor sg (index fs)) (Down :: repeat Step n) =
  Ok (mkCursor sg (index fs + 1 + size (flat_map print (firstn n ms)))).
Proof.
  intros E O Hi.
  assert (OM : forall pre m post, ms = pre ++ m :: post -> exists f, members f = pre /\ occurs t (f :: fs) m /\
     stepping (f :: fs) = true).
  { intros pre m post Em. destruct u as [| | | |us|kb v]; try discriminate Hi; injection Hi as Hi.
    - exists (FStruct pre). subst ms. split; [reflexivity|]. split; [|reflexivity]. eapply occ_struct. rewrite <- Em. exact O.
    - rewrite <- Hi in Em. destruct pre as [|x [|y pre]].
      + injection Em as <- <-. exists (FDict []). split; [reflexivity|]. split; [|reflexivity]. eapply occ_key. exact O.
      + injection Em as <- <- <-. exists (FDict [TBasic kb]). split; [reflexivity|]. split; [|reflexivity]. eapply occ_value. exact O.
      + apply (f_equal (@length ty)) in Em. cbn [length] in Em. rewrite app_length in Em. cbn [length] in Em. lia. }
  assert (D : do_move (mkCursor sg (index fs)) Down = Ok (mkCursor sg (index fs + 1))).
  { unfold do_move. cbn [idx_of]. destruct (structure _ _ _ _ _ E O) as [_ [_ [_ [-> _]]]].
    destruct u; try discriminate Hi; reflexivity. }
  assert (S : forall pre m post, ms = pre ++ m :: post ->
     do_move (mkCursor sg (index fs + 1 + size (flat_map print pre))) Step =
     Ok (mkCursor sg (index fs + 1 + size (flat_map print (pre ++ [m]))))).
  { intros pre m post Em. destruct (OM pre m post Em) as [f [Hf [Of Sf]]].
    assert (Ei : index fs + 1 + size (flat_map print pre) = index (f :: fs)).
    { unfold index. cbn [prefix]. rewrite size_app, size_cons, Hf. lia. }
    unfold do_move. cbn [idx_of]. rewrite Ei. destruct (structure _ _ _ _ _ E Of) as [_ [_ [_ [_ [-> _]]]]].
    rewrite Sf. cbn [bind maybe_move move_to c_sig]. unfold move_to. cbn [c_sig]. do 2 f_equal. rewrite <- Ei, flat_map_app, size_app. cbn [flat_map].
    rewrite app_nil_r. lia. }
  intros n Hn. cbn [do_moves]. rewrite D. cbn [bind].
  assert (G : forall n pre post, ms = pre ++ post -> (n <= length post)%nat ->
    do_moves (mkCursor sg (index fs + 1 + size (flat_map print pre))) (repeat Step n) =
    Ok (mkCursor sg (index fs + 1 + size (flat_map print (pre ++ firstn n post))))).
  { induction n0 as [|n0 IH]; intros pre post Em L.
    - cbn [repeat do_moves firstn]. rewrite app_nil_r. reflexivity.
    - destruct post as [|m post]; [cbn in L; lia|]. cbn [repeat do_moves firstn].
      rewrite (S pre m post Em). cbn [bind]. rewrite (IH (pre ++ [m]) post).
      + rewrite <- app_assoc. reflexivity.
      + rewrite Em, <- app_assoc. reflexivity.
      + cbn in L. lia. }
  pose proof (G n [] ms eq_refl Hn) as R. change (size (flat_map print [])) with 0 in R. rewrite N.add_0_r in R.
  exact R.
Qed.

(** ** C19 *)
Lemma contains_struct (f : ty -> bool) (P : ty -> Prop) t :
  (forall b, f (TBasic b) = true <-> P (TBasic b)) -> (f TVariant = true <-> P TVariant) ->
  (forall u, f (TArray u) = true <-> P (TArray u) \/ f u = true) ->
  (forall u, f (TMaybe u) = true <-> P (TMaybe u) \/ f u = true) ->
  (forall ms, f (TStruct ms) = true <-> P (TStruct ms) \/ existsb f ms = true) ->
  (forall k v, f (TDict k v) = true <-> P (TDict k v) \/ f (TBasic k) = true \/ f v = true) ->
  f t = true <-> contains t P.
Proof.
  intros Hb Hv Ha Hm Hs Hd. split.
  - induction t as [b| |t IH|t IH|ms IH|kb v IH] using ty_rect'; intros H.
    + exists [], (TBasic b). split; [constructor|apply Hb, H].
    + exists [], TVariant. split; [constructor|apply Hv, H].
    + apply Ha in H. destruct H as [H|H]; [exists [], (TArray t); split; [constructor|exact H]|].
      destruct (IH H) as [fs [u [O Pu]]]. exists (fs ++ [FArray]), u. split; [|exact Pu].
      eapply occurs_trans; [apply occ_array, occ_root|exact O].
    + apply Hm in H. destruct H as [H|H]; [exists [], (TMaybe t); split; [constructor|exact H]|].
      destruct (IH H) as [fs [u [O Pu]]]. exists (fs ++ [FMaybe]), u. split; [|exact Pu].
      eapply occurs_trans; [apply occ_maybe, occ_root|exact O].
    + apply Hs in H. destruct H as [H|H]; [exists [], (TStruct ms); split; [constructor|exact H]|].
      apply existsb_exists in H. destruct H as [m [Hin H]].
      rewrite Forall_forall in IH. destruct (IH m Hin H) as [fs [u [O Pu]]].
      apply in_split in Hin. destruct Hin as [pre [post ->]].
      exists (fs ++ [FStruct pre]), u. split; [|exact Pu].
      eapply occurs_trans; [eapply occ_struct, occ_root|exact O].
    + apply Hd in H. destruct H as [H|[H|H]].
      * exists [], (TDict kb v). split; [constructor|exact H].
      * exists [FDict []], (TBasic kb). split; [eapply occ_key, occ_root|apply Hb, H].
      * destruct (IH H) as [fs [u [O Pu]]]. exists (fs ++ [FDict [TBasic kb]]), u. split; [|exact Pu].
        eapply occurs_trans; [eapply occ_value, occ_root|exact O].
  - intros [fs [u [O Pu]]]. assert (G : f u = true).
    { clear O. destruct u; [apply Hb|apply Hv|apply Ha; left|apply Hm; left|apply Hs; left|apply Hd; left]; exact Pu. }
    clear Pu. induction O as [|fs u O IH|fs u O IH|fs ms u ms' O IH|fs kb v O IH|fs kb v O IH].
    + exact G.
    + apply IH, Ha. right. exact G.
    + apply IH, Hm. right. exact G.
    + apply IH, Hs. right. apply existsb_exists. exists u. split; [apply in_app_iff; right; left; reflexivity|exact G].
    + apply IH, Hd. right. left. exact G.
    + apply IH, Hd. right. right. exact G.
Qed.
Lemma dynamic_contains t : dynamic t = true <-> contains t dynamic_one.
Proof.
  apply contains_struct.
  - intros b. destruct b; cbn; split; intros H; try discriminate; try tauto;
      repeat (destruct H as [H|H]; try discriminate H); try discriminate H; auto.
  - cbn. tauto.
  - cbn. tauto.
  - cbn. tauto.
  - cbn. tauto.
  - intros k v. cbn. rewrite orb_true_iff. tauto.
Qed.
Lemma handle_contains t : r_han t = true <-> contains t (fun u => u = TBasic BHandle).
Proof.
  apply contains_struct.
  - intros b. destruct b; cbn; split; intros H; try discriminate; reflexivity.
  - cbn. split; discriminate.
  - intros u. cbn. split; [auto|intros [H|H]; [discriminate|exact H]].
  - intros u. cbn. split; [auto|intros [H|H]; [discriminate|exact H]].
  - intros u. cbn. split; [auto|intros [H|H]; [discriminate|exact H]].
  - intros k v. cbn. rewrite orb_true_iff. split; [auto|intros [H|H]; [discriminate|exact H]].
Qed.
Lemma uns_contains t : r_uns t = true <-> contains t (fun u => exists v, u = TMaybe v).
Proof.
  apply contains_struct.
  - intros b. cbn. split; [discriminate|intros [v H]; discriminate].
  - cbn. split; [discriminate|intros [v H]; discriminate].
  - intros u. cbn. split; [auto|intros [[v H]|H]; [discriminate|exact H]].
  - intros u. cbn. split; [intros _; left; exists u; reflexivity|reflexivity].
  - intros u. cbn. split; [auto|intros [[v H]|H]; [discriminate|exact H]].
  - intros k v. cbn. split; [auto|intros [[v' H]|[H|H]]; [discriminate|discriminate|exact H]].
Qed.
Lemma flags_partial fuel t sg fs u : sig_new fuel (print t) = Ok (inr sg) -> occurs t fs u ->
  exists f, node_flags sg (index fs) = Ok (Some f) /\
    f_prefix f = true /\ f_open f = opens u /\ f_close f = false /\
    (f_basic f = true <-> exists b, u = TBasic b) /\
    (f_dynamic f = true <-> contains u dynamic_one) /\
    (f_handle f = true <-> contains u (fun v => v = TBasic BHandle)) /\
    (f_variant f = true <-> u = TVariant) /\
    (f_dict f = true <-> exists b v, inner u = Some [TBasic b; v]) /\
    (f_dvar_unsupported f = true <-> contains u (fun v => exists w, v = TMaybe w)).
Proof.
  intros E O. destruct (sig_new_sig _ _ _ E) as [t' [P [I _]]]. apply print_inj in P. subst t'.
  destruct (start_flags t sg I _ _ O) as [k [f [Ef [n [<- Ob]]]]]. exists (n_flags n). split; [exact Ef|].
  rewrite (o_prefix _ _ _ Ob), (o_open _ _ _ Ob), (o_close _ _ _ Ob), (o_basic _ _ _ Ob), (o_dyn _ _ _ Ob),
    (o_han _ _ _ Ob), (o_var _ _ _ Ob), (o_dict _ _ _ Ob), (o_uns _ _ _ Ob).
  split; [reflexivity|]. split; [reflexivity|]. split; [reflexivity|].
  split; [destruct u; cbn; split; intros H; try discriminate; try (destruct H; discriminate); [eexists; reflexivity|reflexivity]|].
  split; [apply dynamic_contains|]. split; [apply handle_contains|].
  split; [destruct u; cbn; split; intros H; try discriminate; reflexivity|].
  split; [|apply uns_contains].
  destruct u as [| | | |ms|kb v]; cbn [r_dict inner]; try (split; [discriminate|intros [? [? H]]; discriminate]).
  - split.
    + destruct ms as [|m [|m' [|? ?]]]; try discriminate. cbn. destruct m; try discriminate. intros _. do 2 eexists. reflexivity.
    + intros [b [v H]]. injection H as ->. reflexivity.
  - split; [intros _; do 2 eexists; reflexivity|reflexivity].
Qed.

Lemma sizes_partial fuel t sg fs u : sig_new fuel (print t) = Ok (inr sg) -> occurs t fs u ->
  exists n, node_at sg (index fs) = Ok (Some n) /\ n_dvar_size n = dvar_size u /\ n_gvar_size n = gvar_end u.
Proof.
  intros E O. destruct (sig_new_sig _ _ _ E) as [t' [P [I _]]]. apply print_inj in P. subst t'.
  destruct (start_node t sg I _ _ O) as [k [n [En [Ob _]]]]. exists n. split; [exact En|].
  split; [apply (o_dsz _ _ _ Ob)|apply (o_gsz _ _ _ Ob)].
Qed.

(** ** C22 *)
Lemma sub_signature fuel t sg fs u : sig_new fuel (print t) = Ok (inr sg) -> occurs t fs u ->
  exists sub own, c_sub (mkCursor sg (index fs)) = Ok (Some sub) /\ sig_new fuel (print u) = Ok (inr own) /\
    sig_to_string sub = Ok (print u) /\ sig_eq sub own = Ok true /\ sig_cmp sub own = Ok Eq /\
    sig_hash sub = sig_hash own /\ same_queries sub own /\
    (size (print t) <= 31 -> sig_len sub = sig_len own).
Proof.
  intros E O. pose proof (sig_new_bound _ _ _ E) as B. destruct (sig_new_sig _ _ _ E) as [t' [P [I K]]]. apply print_inj in P. subst t'.
  pose proof (occ_bound t fs u O) as OB.
  destruct (sig_new_print fuel u ltac:(unfold len in *; lia)) as [own [Eo Io]].
  assert (S : exists sub, c_sub (mkCursor sg (index fs)) = Ok (Some sub) /\ is_sig u sub /\ s_kind sub = s_kind sg).
  { destruct I as [k r Hk Hr Es]. rewrite Es. unfold c_sub. cbn [c_sig c_idx s_kind]. apply (at_start k Hk t r Hr fs u O). }
  destruct S as [sub [Es [Is Ks]]]. exists sub, own. split; [exact Es|]. split; [exact Eo|].
  destruct (is_sig_elements u sub Is) as [l [El Ec]]. destruct (is_sig_elements u own Io) as [l' [El' Ec']].
  assert (Ei : map e_id l = map e_id l') by (apply ids_codes; congruence).
  split; [unfold sig_to_string; rewrite El; cbn [bind]; congruence|].
  split; [unfold sig_eq; rewrite El, El'; cbn [bind]; rewrite Ei; f_equal; apply list_eqb_eq; reflexivity|].
  split; [unfold sig_cmp; rewrite El, El'; cbn [bind]; rewrite Ec, Ec'; f_equal;
    pose proof (list_cmp_lt (print u) (print u)) as C; destruct (list_cmp (print u) (print u)); [reflexivity|..];
    exfalso; eapply text_lt_irrefl; eassumption|].
  split; [unfold sig_hash; rewrite El, El'; cbn [bind]; congruence|].
  split; [apply (is_sig_same u); assumption|].
  intros H31. destruct (sig_len_ok u sub Is) as [m [_ [M8 [_ ->]]]].
  rewrite (len_partial _ _ _ Eo). rewrite M8.
  - unfold len in *. rewrite (proj2 (N.leb_le _ _)) by lia. f_equal. apply N.mul_1_l.
  - rewrite Ks, K. unfold kind_for. rewrite (proj2 (N.leb_le _ _)) by exact H31. reflexivity.
Qed.
