(** Proofs about the encoder: driving it with the calls of a value. *)
From Verif Require Import Base DbusSpec IoMapModel IoMapSpec IoMapProofs.
From Verif Require Import DbusSigAnnot DbusSigTheory DbusCursorProofs DbusCursorQueries DbusSigResults.
From Verif Require Import DvarModel DvarSpec.
Local Open Scope N_scope.
Local Open Scope res_scope.

(** * Bytes *)
Lemma to_le_int n : forall v, to_le_bytes n v = map (fun i => v / 256 ^ N.of_nat i mod 256) (seq 0 n).
Proof.
  induction n as [|n IH]; intros v; [reflexivity|]. cbn [to_le_bytes seq map]. f_equal.
  - cbn [N.of_nat]. rewrite N.pow_0_r, N.div_1_r. reflexivity.
  - rewrite IH, <- seq_shift, map_map. apply map_ext. intros i.
    rewrite N.div_div by (try apply N.pow_nonzero; discriminate). f_equal. f_equal.
    rewrite Nat2N.inj_succ, N.pow_succ_r'. reflexivity.
Qed.
Lemma size_int big n v : size (int big n v) = N.of_nat n.
Proof.
  unfold int, size. destruct big; [rewrite rev_length|]; rewrite map_length, seq_length; reflexivity.
Qed.
Lemma is_be_spec f : is_be f = big_endian f.
Proof. reflexivity. Qed.
Lemma en_u16_int f v : en_u16 f v = int (big_endian f) 2 v.
Proof. unfold en_u16, to_be_bytes, int. rewrite is_be_spec, !to_le_int. reflexivity. Qed.
Lemma en_u32_int f v : en_u32 f v = int (big_endian f) 4 v.
Proof. unfold en_u32, to_be_bytes, int. rewrite is_be_spec, !to_le_int. reflexivity. Qed.
Lemma en_u64_int f v : en_u64 f v = int (big_endian f) 8 v.
Proof. unfold en_u64, to_be_bytes, int. rewrite is_be_spec, !to_le_int. reflexivity. Qed.
Lemma en_u8_int f v : v < 256 -> en_u8 f v = int (big_endian f) 1 v.
Proof.
  intros H. unfold en_u8, int. cbn [seq map]. change (256 ^ N.of_nat 0) with 1. rewrite N.div_1_r, N.mod_small by exact H.
  destruct (big_endian f); reflexivity.
Qed.
Lemma size_padding pos a : size (padding pos a) = pad_to (2 ^ a) pos - pos.
Proof. unfold padding. rewrite size_repeat. lia. Qed.
Lemma padding_0 pos : padding pos 0 = [].
Proof. unfold padding, pad_to. change (2 ^ 0) with 1. rewrite N.div_1_r. replace (_ - pos) with 0 by lia. reflexivity. Qed.
Lemma pad_padding pos a : pos + size (padding pos a) = pad_to (2 ^ a) pos.
Proof. rewrite size_padding. pose proof (pad_ge (2 ^ a) pos (pow_pos a)). lia. Qed.

(** * The specification, with sequences *)
Fixpoint marshal_all (big : bool) (ts : list ty) (vs : list value) (pos : N) {struct vs} : option (list N) :=
  match ts, vs with
  | [], [] => Some []
  | t :: ts, v :: vs =>
    match marshal big t v pos with
    | Some b => match marshal_all big ts vs (pos + size b) with Some b' => Some (b ++ b') | None => None end
    | None => None
    end
  | _, _ => None
  end.
Lemma marshal_struct big ts vs pos : marshal big (TStruct ts) (VStruct vs) pos =
  match marshal_all big ts vs (pos + size (padding pos 3)) with Some b => Some (padding pos 3 ++ b) | None => None end.
Proof.
  cbn [marshal]. generalize (pos + size (padding pos 3)). intros q.
  match goal with |- match ?f ?ts ?vs q with _ => _ end = _ => assert (E : forall vs ts q, f ts vs q = marshal_all big ts vs q) end.
  { clear. induction vs as [|v vs IH]; intros [|t ts] q; cbn [marshal_all]; try reflexivity.
    destruct (marshal big t v q) as [b|]; [|reflexivity]. rewrite IH. reflexivity. }
  rewrite E. reflexivity.
Qed.
Lemma marshal_dict big kb t k v pos : marshal big (TDict kb t) (VDict k v) pos =
  match marshal_all big [TBasic kb; t] [k; v] (pos + size (padding pos 3)) with Some b => Some (padding pos 3 ++ b) | None => None end.
Proof.
  cbn [marshal marshal_all]. destruct (marshal big (TBasic kb) k _) as [b|]; [|reflexivity].
  destruct (marshal big t v _); reflexivity.
Qed.
Lemma marshal_array big t vs pos : marshal big (TArray t) (VArray vs) pos =
  let start := pos + size (padding pos 2) + 4 in
  let gap := padding start (dvar_align t) in
  match marshal_all big (repeat t (length vs)) vs (start + size gap) with
  | Some b => if size b <? 2 ^ 32 then Some (padding pos 2 ++ int big 4 (size b) ++ gap ++ b) else None
  | None => None
  end.
Proof.
  cbn [marshal]. cbv zeta. generalize (pos + size (padding pos 2) + 4 + size (padding (pos + size (padding pos 2) + 4) (dvar_align t))).
  intros q. match goal with |- match ?f vs q with _ => _ end = _ => assert (E : f vs q = marshal_all big (repeat t (length vs)) vs q) end.
  { revert q. induction vs as [|v vs IH]; intros q; cbn [length repeat marshal_all]; [reflexivity|].
    destruct (marshal big t v q) as [b|]; [|reflexivity]. rewrite IH. reflexivity. }
  rewrite E. reflexivity.
Qed.
Fixpoint all_up_to (n : N) (vs : list value) : Prop :=
  match vs with [] => True | v :: vs => variants_up_to n v /\ all_up_to n vs end.

(** * Where the cursor goes *)
Definition after (fs : list frame) (t : ty) : N :=
  match step_of fs t with Some i => i | None => size (prefix fs) end.
(** Moving over types from one index to another. *)
Inductive walk (T : ty) : N -> list ty -> N -> Prop :=
| walk_nil i : walk T i [] i
| walk_cons fs t ts j : occurs T fs t -> walk T (after fs t) ts j -> walk T (size (prefix fs)) (t :: ts) j.

Lemma prefix_fs f fs : size (prefix (f :: fs)) = size (prefix fs) + 1 + size (flat_map print (members f)).
Proof. cbn [prefix]. rewrite size_app'. unfold size. cbn [length]. lia. Qed.
Lemma walk_struct T fs ts : forall ms, occurs T fs (TStruct (ms ++ ts)) ->
  walk T (size (prefix (FStruct ms :: fs))) ts (size (prefix (FStruct (ms ++ ts) :: fs))).
Proof.
  induction ts as [|t ts IH]; intros ms O; [rewrite app_nil_r; constructor|].
  econstructor; [eapply occ_struct; exact O|].
  replace (after (FStruct ms :: fs) t) with (size (prefix (FStruct (ms ++ [t]) :: fs))).
  - replace (ms ++ t :: ts) with ((ms ++ [t]) ++ ts) in * by (rewrite <- app_assoc; reflexivity).
    apply IH. exact O.
  - unfold after. cbn [step_of]. rewrite !prefix_fs. cbn [members]. rewrite flat_map_app, size_app'. cbn [flat_map].
    rewrite app_nil_r. unfold len. lia.
Qed.
Lemma walk_array T fs t n : occurs T fs (TArray t) ->
  walk T (size (prefix (FArray :: fs))) (repeat t n) (size (prefix (FArray :: fs))).
Proof.
  intros O. induction n as [|n IH]; cbn [repeat]; [constructor|]. econstructor; [apply occ_array; exact O|]. exact IH.
Qed.
Lemma walk_dict T fs k t : occurs T fs (TDict k t) ->
  walk T (size (prefix (FDict [] :: fs))) [TBasic k; t] (close_idx fs (TDict k t)).
Proof.
  intros O. econstructor; [eapply occ_key; exact O|].
  replace (after (FDict [] :: fs) (TBasic k)) with (size (prefix (FDict [TBasic k] :: fs))).
  - econstructor; [eapply occ_value; exact O|]. unfold after. cbn [step_of]. unfold close_idx.
    rewrite prefix_fs. cbn [members flat_map print app]. unfold len. cbn [print]. unfold size. cbn [length]. rewrite app_length. cbn [length].
    match goal with |- walk _ ?a _ ?b => replace b with a by lia end. constructor.
  - unfold after. cbn [step_of]. rewrite !prefix_fs. cbn [members flat_map app print]. unfold len. cbn [print]. unfold size. cbn [length]. lia.
Qed.
Lemma close_struct fs ts : size (prefix (FStruct ts :: fs)) = close_idx fs (TStruct ts).
Proof. rewrite prefix_fs. cbn [members]. unfold close_idx, len. cbn [print]. unfold size. cbn [length]. rewrite app_length. cbn [length]. lia. Qed.

Lemma expects_start T s fs u el : is_sig T s -> occurs T fs u ->
  expects (mkCursor s (size (prefix fs))) el = Ok (e_id (ty_el u) =? e_id el).
Proof.
  intros HS O. unfold expects, c_element. cbn [c_idx]. rewrite (start_element T s HS fs u O). reflexivity.
Qed.
Lemma step_start T s fs u : is_sig T s -> occurs T fs u ->
  move_step (mkCursor s (size (prefix fs))) = Ok (mkCursor s (after fs u)).
Proof.
  intros HS O. unfold move_step, do_move. cbn [idx_of]. rewrite (start_step T s HS fs u O). cbn [bind].
  unfold maybe_move, move_to, after. destruct (step_of fs u); reflexivity.
Qed.
Lemma down_start T s fs u : is_sig T s -> occurs T fs u -> is_container u = true ->
  do_move (mkCursor s (size (prefix fs))) Down = Ok (mkCursor s (size (prefix fs) + 1)).
Proof.
  intros HS O C. unfold do_move. cbn [idx_of]. rewrite (start_down T s HS fs u O), C. reflexivity.
Qed.
Lemma cursor_root T s : is_sig T s -> cursor s = Ok (mkCursor s 0).
Proof.
  intros HS. unfold cursor, cursor_with. destruct (sig_len_ok T s HS) as [m [M1 [_ [_ ->]]]]. cbn [bind].
  pose proof (len_pos T). destruct (N.ltb_spec 0 (m * len T)); [reflexivity|]. do 2 f_equal. nia.
Qed.
Lemma make_sig_ok t : len t < 2 ^ 61 -> exists s, make_sig (print t) = Ok s /\ is_sig t s /\ s_kind s = kind_for (print t).
Proof.
  intros H. destruct (sig_new_print 0 t H) as [s [E HS]]. exists s. unfold make_sig. rewrite E. split; [reflexivity|].
  split; [exact HS|]. destruct (sig_new_sig _ _ _ E) as [t' [_ [_ K]]]. exact K.
Qed.

(** * One call *)
Section Calls.
Context {W : Type} (I : Write W) (P : W -> Prop) (limit : N).
Context (HS : serving I P limit) (HB : bounded I) (HL : limit < usize).
Implicit Types (o : out W).

Definition st fmt done c lvl stk link up o : Enc W := mkEnc fmt (mkFrame done c lvl stk link) up o.
Definition stored (o o' : out W) (pos : N) (b : list N) : Prop :=
  P (o_w o') /\ forall j, o_mem o' j = store (o_mem o) pos b j.

Lemma stored_app o1 o2 o3 pos a b : stored o1 o2 pos a -> stored o2 o3 (pos + size a) b -> stored o1 o3 pos (a ++ b).
Proof.
  intros [_ A] [Q B]. split; [exact Q|]. intros j. rewrite B, store_app. apply store_ext. exact A.
Qed.
Lemma stored_nil o pos : P (o_w o) -> stored o o pos [].
Proof. intros H. split; [exact H|]. intros j. rewrite store_nil. reflexivity. Qed.
Lemma io_write o pos data : P (o_w o) -> pos + size data <= limit ->
  exists o', write I o pos data = Ok (Continue tt, o', pos + size data) /\ stored o o' pos data.
Proof.
  intros HP H. destruct (write_serving I P limit o pos data HS HL HP H) as [o' [E [Q M]]].
  exists o'. split; [exact E|split; assumption].
Qed.
Lemma io_zero1 o pos : P (o_w o) -> pos + 1 <= limit ->
  exists o', zero I o pos 1 = Ok (Continue tt, o', pos + 1) /\ stored o o' pos [0].
Proof.
  intros HP H. destruct (fill_serving I P limit o pos 1 0 HS HL HP H) as [o' [E [Q M]]].
  exists o'. split; [exact E|split; assumption].
Qed.
Lemma io_align o pos a : P (o_w o) -> a < 31 -> pos + size (padding pos a) <= limit ->
  exists o', align_exp2 I o pos a = Ok (Continue tt, o', pos + size (padding pos a)) /\ stored o o' pos (padding pos a).
Proof.
  intros HP Ha H. rewrite pad_padding in *.
  destruct (align_serving I P limit o pos a HS HL HP Ha H) as [o' [E [Q M]]].
  exists o'. split; [exact E|split; assumption].
Qed.
Lemma io_iter o pos data : P (o_w o) -> pos + size data <= limit ->
  exists o', write_iter I o pos (mkIter (size data) data) = Ok (Continue tt, o', pos + size data) /\ stored o o' pos data.
Proof.
  intros HP H. destruct (write_iter_serving I P limit o pos data HS HB HL HP H) as [o' [E [Q M]]].
  exists o'. split; [exact E|split; assumption].
Qed.

Lemma call_fixed fmt done T s fs b el pos from meta stk link up o data :
  is_sig T s -> occurs T fs (TBasic b) -> e_id (ty_el (TBasic b)) = e_id el -> e_dvar_alignment_exp el < 31 ->
  P (o_w o) -> pos + size (padding pos (e_dvar_alignment_exp el) ++ data) <= limit ->
  exists o', enc_fixed I (st fmt done (mkCursor s (size (prefix fs))) (mkLevel pos from meta) stk link up o) el data =
    Ok (Continue tt, st fmt done (mkCursor s (after fs (TBasic b)))
          (mkLevel (pos + size (padding pos (e_dvar_alignment_exp el) ++ data)) from meta) stk link up o') /\
    stored o o' pos (padding pos (e_dvar_alignment_exp el) ++ data).
Proof.
  intros Hs O Ee Ea HP HLim. unfold enc_fixed. cbv zeta.
  cbn [st e_top f_cursor f_lvl l_idx e_out].
  rewrite (expects_start T s fs _ el Hs O), Ee, N.eqb_refl. cbn [bind negb].
  rewrite size_app' in *.
  destruct (io_align o pos (e_dvar_alignment_exp el) HP Ea ltac:(lia)) as [o1 [E1 S1]].
  rewrite E1. cbn [seq_io bind].
  destruct (io_write o1 (pos + size (padding pos (e_dvar_alignment_exp el))) data (proj1 S1) ltac:(lia)) as [o2 [E2 S2]].
  rewrite E2. cbn [seq_io bind]. rewrite (step_start T s fs _ Hs O). cbn [bind].
  exists o2. split; [|eapply stored_app; eassumption].
  unfold put_out, put_top, with_cursor, with_level, set_idx, st.
  cbn [e_format e_top e_up f_done f_stk f_link l_from l_meta f_lvl f_cursor]. rewrite N.add_assoc. reflexivity.
Qed.

Lemma call_str fmt done T s fs b el len_el limit' en k pos from meta stk link up o data :
  is_sig T s -> occurs T fs (TBasic b) -> e_id (ty_el (TBasic b)) = e_id el -> e_dvar_alignment_exp len_el < 31 ->
  size data < limit' -> en fmt (size data) = int (big_endian fmt) k (size data) ->
  P (o_w o) -> pos + size (padding pos (e_dvar_alignment_exp len_el) ++ counted (big_endian fmt) k data) <= limit ->
  exists o', enc_str I (st fmt done (mkCursor s (size (prefix fs))) (mkLevel pos from meta) stk link up o) el len_el limit' en data =
    Ok (Continue tt, st fmt done (mkCursor s (after fs (TBasic b)))
          (mkLevel (pos + size (padding pos (e_dvar_alignment_exp len_el) ++ counted (big_endian fmt) k data)) from meta) stk link up o') /\
    stored o o' pos (padding pos (e_dvar_alignment_exp len_el) ++ counted (big_endian fmt) k data).
Proof.
  intros Hs O Ee Ea HD Hen HP HLim. unfold enc_str. cbv zeta.
  cbn [st e_top f_cursor f_lvl l_idx e_out e_format].
  rewrite (expects_start T s fs _ el Hs O), Ee, N.eqb_refl. cbn [bind negb].
  rewrite (proj2 (N.ltb_lt _ _)) by exact HD. cbn [negb]. rewrite Hen. unfold counted in *.
  set (pad := padding pos (e_dvar_alignment_exp len_el)) in *. set (n := int (big_endian fmt) k (size data)) in *.
  rewrite !size_app' in *. change (size [0]) with 1 in *.
  destruct (io_align o pos (e_dvar_alignment_exp len_el) HP Ea ltac:(fold pad; lia)) as [o1 [E1 S1]].
  rewrite E1. cbn [seq_io bind]. fold pad in S1 |- *.
  destruct (io_write o1 (pos + size pad) n (proj1 S1) ltac:(lia)) as [o2 [E2 S2]].
  rewrite E2. cbn [seq_io bind].
  destruct (io_write o2 (pos + size pad + size n) data (proj1 S2) ltac:(lia)) as [o3 [E3 S3]].
  rewrite E3. cbn [seq_io bind].
  destruct (io_zero1 o3 (pos + size pad + size n + size data) (proj1 S3) ltac:(lia)) as [o4 [E4 S4]].
  rewrite E4. cbn [seq_io bind]. rewrite (step_start T s fs _ Hs O). cbn [bind].
  exists o4. split.
  - unfold put_out, put_top, with_cursor, with_level, set_idx, st.
    cbn [e_format e_top e_up f_done f_stk f_link l_from l_meta f_lvl f_cursor]. do 5 f_equal. lia.
  - eapply stored_app; [exact S1|]. eapply stored_app; [exact S2|]. eapply stored_app; [exact S3|exact S4].
Qed.

Lemma call_variant fmt done T s fs u pos from meta stk link up o :
  is_sig T s -> occurs T fs TVariant -> size (print u) <= 31 ->
  P (o_w o) -> pos + size (counted (big_endian fmt) 1 (print u)) <= limit ->
  exists o' s', is_sig u s' /\
    enc_call I (st fmt done (mkCursor s (size (prefix fs))) (mkLevel pos from meta) stk link up o) (CVariant (print u)) =
    Ok (Continue tt, st fmt done (mkCursor s' 0)
          (mkLevel (pos + size (counted (big_endian fmt) 1 (print u))) (pos + size (counted (big_endian fmt) 1 (print u))) (pos + size (counted (big_endian fmt) 1 (print u))))
          ((EVariant, mkLevel pos from meta, Some (mkCursor s (size (prefix fs)))) :: stk) link up o') /\
    stored o o' pos (counted (big_endian fmt) 1 (print u)).
Proof.
  intros Hs O Hu HP HLim. cbn [enc_call].
  destruct (make_sig_ok u) as [s' [EM [Hs' HK]]]; [unfold len; lia|]. rewrite EM. cbn [bind].
  unfold enc_variant. cbv zeta. cbn [st e_top f_cursor f_lvl l_idx e_out e_format].
  rewrite (expects_start T s fs _ EVariant Hs O). change (e_id (ty_el TVariant) =? e_id EVariant) with true. cbn [bind negb].
  assert (K8 : s_kind s' = node8).
  { rewrite HK. unfold kind_for. rewrite (proj2 (N.leb_le _ _)) by exact Hu. reflexivity. }
  destruct (sig_len_ok u s' Hs') as [m [_ [M8 [_ EL]]]]. rewrite (M8 K8), N.mul_1_l in EL. rewrite EL. cbn [bind].
  unfold len in *. rewrite (proj2 (N.ltb_lt (size (print u)) (2 ^ 8))) by lia. cbn [negb].
  change (e_dvar_alignment_exp EU8) with 0.
  destruct (io_align o pos 0 HP ltac:(lia) ltac:(rewrite padding_0; unfold counted in HLim; rewrite !size_app' in HLim; change (size (@nil N)) with 0; lia)) as [o1 [E1 S1]].
  rewrite padding_0 in E1, S1. change (size (@nil N)) with 0 in E1. rewrite N.add_0_r in E1. rewrite E1. cbn [seq_io bind].
  rewrite en_u8_int by lia. unfold counted in *. set (n := int (big_endian fmt) 1 (size (print u))) in *.
  rewrite !size_app' in *. change (size [0]) with 1 in *.
  destruct (io_write o1 pos n (proj1 S1) ltac:(lia)) as [o2 [E2 S2]].
  rewrite E2. cbn [seq_io bind]. rewrite (cursor_root u s' Hs'). cbn [bind].
  unfold size_hint. cbn [c_sig c_idx]. rewrite EL. cbn [bind]. unfold DbusSigModel.strict_sub.
  rewrite (proj2 (N.leb_le 0 _)) by lia. cbn [bind]. rewrite N.sub_0_r.
  destruct (is_sig_elements u s' Hs') as [els [Eels Ecodes]]. rewrite Eels. cbn [bind]. rewrite Ecodes.
  destruct (io_iter o2 (pos + size n) (print u) (proj1 S2) ltac:(lia)) as [o3 [E3 S3]].
  rewrite E3. cbn [seq_io bind].
  destruct (io_zero1 o3 (pos + size n + size (print u)) (proj1 S3) ltac:(lia)) as [o4 [E4 S4]].
  rewrite E4. cbn [seq_io bind].
  exists o4, s'. split; [exact Hs'|]. split.
  - unfold put_out, put_top, st. cbn [e_format e_top e_up f_done f_stk f_link f_lvl f_cursor].
    rewrite !N.add_assoc. reflexivity.
  - change (n ++ print u ++ [0]) with ([] ++ n ++ print u ++ [0]).
    eapply stored_app; [exact S1|]. change (size (@nil N)) with 0. rewrite N.add_0_r.
    eapply stored_app; [exact S2|]. eapply stored_app; [exact S3|exact S4].
Qed.

Lemma call_array fmt done T s fs u pos from meta stk link up o :
  is_sig T s -> occurs T fs (TArray u) ->
  let start := pos + size (padding pos 2) + 4 in
  let gap := padding start (dvar_align u) in
  P (o_w o) -> start + size gap <= limit ->
  exists o', enc_array I (st fmt done (mkCursor s (size (prefix fs))) (mkLevel pos from meta) stk link up o) =
    Ok (Continue tt, st fmt done (mkCursor s (size (prefix (FArray :: fs))))
          (mkLevel (start + size gap) (start + size gap) (pos + size (padding pos 2)))
          ((EArray, mkLevel pos from meta, None) :: stk) link up o') /\
    stored o o' pos (padding pos 2 ++ int (big_endian fmt) 4 0 ++ gap).
Proof.
  intros Hs O start gap HP HLim. unfold enc_array. cbv zeta.
  cbn [st e_top f_cursor f_lvl l_idx e_out e_format].
  rewrite (expects_start T s fs _ EArray Hs O). change (e_id (ty_el (TArray u)) =? e_id EArray) with true. cbn [bind negb].
  unfold c_down. rewrite (start_down T s Hs fs _ O). cbn [is_container bind].
  pose proof (occ_array T fs u O) as O'.
  assert (EI : size (prefix fs) + 1 = size (prefix (FArray :: fs))) by (rewrite prefix_fs; cbn; change (size (@nil N)) with 0; lia).
  rewrite EI. change (element_at (mkCursor s (size (prefix fs)))) with (element_at (mkCursor s (size (prefix (FArray :: fs))))).
  rewrite (start_element T s Hs _ _ O'). cbn [unwrap bind].
  assert (EA : e_dvar_alignment_exp (ty_el u) = dvar_align u).
  { destruct u as [b| | | | |]; try reflexivity. destruct b; reflexivity. }
  rewrite EA. change (e_dvar_alignment_exp EU32) with 2. rewrite en_u32_int.
  destruct (io_align o pos 2 HP ltac:(lia) ltac:(unfold start in *; lia)) as [o1 [E1 S1]].
  rewrite E1. cbn [seq_io bind].
  assert (EN : size (int (big_endian fmt) 4 0) = 4) by apply size_int.
  destruct (io_write o1 (pos + size (padding pos 2)) (int (big_endian fmt) 4 0) (proj1 S1)) as [o2 [E2 S2]].
  { rewrite EN. unfold start in *. lia. }
  rewrite E2. cbn [seq_io bind]. rewrite EN. fold start.
  destruct (io_align o2 start (dvar_align u) (proj1 S2)) as [o3 [E3 S3]].
  { destruct u as [b| | | | |]; try (cbn; lia). destruct b; cbn; lia. }
  { exact HLim. }
  rewrite E3. cbn [seq_io bind]. rewrite (down_start T s fs _ Hs O eq_refl). cbn [bind].
  exists o3. split.
  - unfold put_out, put_top, st. cbn [e_format e_top e_up f_done f_stk f_link f_lvl f_cursor]. rewrite EI. reflexivity.
  - eapply stored_app; [exact S1|]. eapply stored_app; [exact S2|]. rewrite EN. exact S3.
Qed.

Lemma call_open fmt done T s fs u el pos from meta stk link up o :
  is_sig T s -> occurs T fs u -> e_id (ty_el u) = e_id el -> is_container u = true -> dvar_align u = 3 ->
  P (o_w o) -> pos + size (padding pos 3) <= limit ->
  exists o', enc_open I (st fmt done (mkCursor s (size (prefix fs))) (mkLevel pos from meta) stk link up o) el =
    Ok (Continue tt, st fmt done (mkCursor s (size (prefix fs) + 1))
          (mkLevel (pos + size (padding pos 3)) (pos + size (padding pos 3)) (pos + size (padding pos 3)))
          ((el, mkLevel pos from meta, None) :: stk) link up o') /\
    stored o o' pos (padding pos 3).
Proof.
  intros Hs O Ee Ec Ea HP HLim. unfold enc_open. cbv zeta. cbn [st e_top f_cursor f_lvl l_idx e_out e_format].
  rewrite (expects_start T s fs _ el Hs O), Ee, N.eqb_refl. cbn [bind negb].
  rewrite (start_dva T s Hs fs _ O), Ea. cbn [unwrap bind].
  destruct (io_align o pos 3 HP ltac:(lia) HLim) as [o1 [E1 S1]]. rewrite E1. cbn [seq_io bind].
  rewrite (down_start T s fs _ Hs O Ec). cbn [bind]. exists o1. split; [reflexivity|exact S1].
Qed.

(** Closing. *)
Lemma close_frame_ok f el up_level c stk :
  f_stk f = (el, up_level, c) :: stk -> forall c',
  (do x <- match c with Some v => Ok v | None => do_move (f_cursor f) Up end; move_step x) = Ok c' ->
  close_frame f = Ok (mkFrame (f_done f) c' (set_idx up_level (l_idx (f_lvl f))) stk (f_link f)).
Proof.
  intros E c' H. unfold close_frame. rewrite E. destruct (match c with Some v => Ok v | None => _ end) as [x| |]; cbn [bind] in *; try discriminate.
  rewrite H. reflexivity.
Qed.
Lemma call_close_plain fmt done c lvl el l oc stk link up o c' :
  (el = EVariant \/ el = EStructOpen \/ el = EDictOpen) -> idx_step c = Ok None ->
  (do x <- match oc with Some v => Ok v | None => do_move c Up end; move_step x) = Ok c' ->
  enc_close I (st fmt done c lvl ((el, l, oc) :: stk) link up o) =
    Ok (Continue tt, st fmt done c' (set_idx l (l_idx lvl)) stk link up o).
Proof.
  intros He Hst Hc. unfold enc_close. cbv zeta. cbn [st e_top f_cursor f_lvl f_stk e_out]. rewrite Hst. cbn [bind].
  pose proof (close_frame_ok (mkFrame done c lvl ((el, l, oc) :: stk) link) el l oc stk eq_refl c' Hc) as EC.
  cbn [f_done f_lvl f_link] in EC. rewrite EC. cbn [bind].
  destruct He as [->|[->| ->]]; reflexivity.
Qed.
Lemma call_close_array fmt done c lvl l stk link up o c' n :
  idx_step c = Ok None -> (do x <- do_move c Up; move_step x) = Ok c' ->
  l_idx lvl = l_from lvl + n -> n < 2 ^ 32 -> l_meta lvl + 4 <= limit -> P (o_w o) ->
  exists o', enc_close I (st fmt done c lvl ((EArray, l, None) :: stk) link up o) =
    Ok (Continue tt, st fmt done c' (set_idx l (l_idx lvl)) stk link up o') /\
    P (o_w o') /\
    forall j, o_mem o' j = (if n =? 0 then o_mem o j else store (o_mem o) (l_meta lvl) (int (big_endian fmt) 4 n) j).
Proof.
  intros Hst Hc Hn Hn32 HLim HP. unfold enc_close. cbv zeta. cbn [st e_top f_cursor f_lvl f_stk e_out e_format]. rewrite Hst. cbn [bind].
  pose proof (close_frame_ok (mkFrame done c lvl ((EArray, l, None) :: stk) link) EArray l None stk eq_refl c' Hc) as EC.
  cbn [f_done f_lvl f_link] in EC. rewrite EC. cbn [bind].
  unfold sub_usize. rewrite (proj2 (N.leb_le _ _)) by lia. cbn [bind]. replace (l_idx lvl - l_from lvl) with n by lia.
  destruct (N.ltb_spec 0 n) as [L|L].
  - rewrite (proj2 (N.ltb_lt _ _)) by exact Hn32. cbn [negb]. rewrite en_u32_int.
    destruct (io_write o (l_meta lvl) (int (big_endian fmt) 4 n) HP) as [o' [E [Q M]]]; [rewrite size_int; exact HLim|].
    rewrite E. cbn [seq_io bind]. exists o'. split; [reflexivity|]. split; [exact Q|].
    intros j. rewrite (proj2 (N.eqb_neq _ _)) by lia. apply M.
  - exists o. split; [reflexivity|]. split; [exact HP|]. intros j. rewrite (proj2 (N.eqb_eq _ _)) by lia. reflexivity.
Qed.
End Calls.
