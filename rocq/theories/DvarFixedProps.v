(** C132: sizes and positions in D-Bus messages are those the signature tells. *)
From Verif Require Import Base DbusSpec DbusSigModel DbusObs DbusSigResults DbusSigProps IoMapModel IoMapSpec IoMapProofs IoMapProps DvarModel DvarSpec DvarTyping DvarSubs DvarProofs DvarEncode DvarProps DvarLossProps DvarLoss DvarFixed.
Local Open Scope N_scope.

(** ** C132 *)

(** The bytes of a value do not depend on where in a message it is, but for the
    position modulo 8. *)
Theorem dvar_position_modulo_8 : forall big t v pos k, marshal big t v (pos + 8 * k) = marshal big t v pos.
Proof. intros big t v pos k. apply shifting. Qed.
Print Assumptions dvar_position_modulo_8.
(** The padding before a value is that of the alignment of its type. *)
Theorem dvar_padding_first : forall big t v pos, marshal big t v pos =
  match marshal big t v (pad_to (2 ^ dvar_align t) pos) with
  | Some b => Some (padding pos (dvar_align t) ++ b)
  | None => None
  end.
Proof. exact padded. Qed.
Print Assumptions dvar_padding_first.
(** Hence structures, dictionary entries and 64-bit integers are found in every
    message as they are written alone, after the padding. *)
Theorem dvar_part_as_whole : forall big t v pos b, dvar_align t = 3 -> marshal big t v 0 = Some b ->
  marshal big t v pos = Some (padding pos 3 ++ b).
Proof.
  intros big t v pos b A E. rewrite padded, A. destruct (pad_eight pos) as [q ->].
  pose proof (shifting big v t 0 q) as S. cbn [N.add] in S. rewrite S, E. reflexivity.
Qed.
Print Assumptions dvar_part_as_whole.

(** A type that the signature marks as not dynamic has values of one size, which is
    the size in the signature: wherever the value is in a message, it ends so many
    bytes after the next multiple of the alignment in the signature. *)
Theorem dvar_announced_size : forall fuel T sg fs t n f a, sig_new fuel (print T) = Ok (inr sg) -> occurs T fs t ->
  node_at sg (index fs) = Ok (Some n) -> node_flags sg (index fs) = Ok (Some f) -> f_dynamic f = false ->
  c_dvar_alignment_exp (mkCursor sg (index fs)) = Ok (Some a) ->
  forall big v pos b, marshal big t v pos = Some b -> pos + size b = pad_to (2 ^ a) pos + n_dvar_size n.
Proof.
  intros fuel T sg fs t n f a S O N G D A big v pos b E.
  destruct (sig_alignment fuel T sg fs t S O) as [A' _]. assert (a = dvar_align t) as -> by congruence.
  destruct (sig_sizes_partial fuel T sg fs t S O) as (n' & N' & L & _). assert (n' = n) as -> by congruence. rewrite L.
  apply (fixed big t v pos b); [|exact E].
  destruct (dynamic t) eqn:Y; [|reflexivity]. apply dynamic_contains in Y.
  destruct (sig_flags_partial fuel T sg fs t S O) as (f' & F & _ & _ & _ & _ & Q & _).
  rewrite G in F. injection F as <-. apply Q in Y. congruence.
Qed.
Print Assumptions dvar_announced_size.

(** So every encoder of such a type commits this size, whatever the writer, the
    calls and their outcomes. *)
Theorem dvar_announced_commit : forall W (I : Write W) fuel fmt o t sg e0 l e e' n f,
  bounded I -> sig_new fuel (print t) = Ok (inr sg) -> enc_new sg fmt o = Ok e0 ->
  history I e0 l e -> inside 0 (succeeded l) = true -> Forall call_fits (succeeded l) ->
  enc_call I e CCommit = Ok (Continue tt, e') ->
  node_at sg 0 = Ok (Some n) -> node_flags sg 0 = Ok (Some f) -> f_dynamic f = false ->
  w_commit I (o_w (e_out e)) (n_dvar_size n) = Ok (o_w (e_out e')).
Proof.
  intros W I fuel fmt o t sg e0 l e e' n f B S N H Z F C K Y D.
  destruct (dvar_committed_bytes W I fuel fmt o t sg e0 l e e' B S N H Z F C) as (cs & v & b & w & _ & _ & E & G & -> & _).
  destruct (sig_alignment fuel t sg [] t S (occ_root t)) as [A _].
  pose proof (dvar_announced_size fuel t sg [] t n f _ S (occ_root t) K Y D A _ v 0 b E) as L.
  pose proof (pad_multiple (2 ^ dvar_align t) 0 (pow_pos _)) as P0. cbn [N.mul] in P0. rewrite P0 in L. cbn [N.add] in L.
  rewrite <- L. exact G.
Qed.
Print Assumptions dvar_announced_commit.

(** Elements of arrays can be found without reading those before: if the elements
    are not dynamic, then the element at index [i] is [i] times the size apart from
    the first one, the size being rounded up to the alignment, and is there as if it
    was written alone. *)
Theorem dvar_array_element : forall W (I : Write W) fuel fmt o u sg e0 l e e' n f a cs vs,
  bounded I -> sig_new fuel (print (TArray u)) = Ok (inr sg) -> enc_new sg fmt o = Ok e0 ->
  history I e0 l e -> inside 0 (succeeded l) = true -> Forall call_fits (succeeded l) ->
  enc_call I e CCommit = Ok (Continue tt, e') -> counts (succeeded l) cs -> encodes (TArray u) (VArray vs) cs ->
  node_at sg 1 = Ok (Some n) -> node_flags sg 1 = Ok (Some f) -> f_dynamic f = false ->
  c_dvar_alignment_exp (mkCursor sg 1) = Ok (Some a) ->
  forall i v, nth_error vs i = Some v ->
  exists b, marshal (big_endian fmt) u v 0 = Some b /\ size b = n_dvar_size n /\
    forall k x, nth_error b k = Some x ->
      o_mem (e_out e') (pad_to (2 ^ a) 4 + N.of_nat i * pad_to (2 ^ a) (n_dvar_size n) + N.of_nat k) = Some x.
Proof.
  intros W I fuel fmt o u sg e0 l e e' n f a cs vs B S N H Z F C Q X K U D A i v V.
  destruct (dvar_committed_bytes W I fuel fmt o (TArray u) sg e0 l e e' B S N H Z F C) as (cs' & v' & b & w & Q' & X' & E & _ & _ & M).
  assert (cs' = cs) as -> by (eapply (proj1 dvar_counting); eassumption).
  assert (v' = VArray vs) as ->.
  { rewrite <- (app_nil_r cs) in X'. exact (eq_sym (proj1 (dvar_calls_one_value _ _ _ _ _ X X'))). }
  pose proof (occ_array _ _ _ (occ_root (TArray u))) as O.
  destruct (sig_alignment fuel (TArray u) sg [FArray] u S O) as [A' _]. change (index [FArray]) with 1 in A'. assert (a = dvar_align u) as -> by congruence.
  destruct (sig_sizes_partial fuel (TArray u) sg [FArray] u S O) as (n' & N' & L & _). change (index [FArray]) with 1 in N'. assert (n' = n) as -> by congruence.
  assert (Y : dynamic u = false).
  { destruct (dynamic u) eqn:Y; [|reflexivity]. apply dynamic_contains in Y.
    destruct (sig_flags_partial fuel (TArray u) sg [FArray] u S O) as (f' & G & _ & _ & _ & _ & P & _).
    change (index [FArray]) with 1 in G. rewrite U in G. injection G as <-. apply P in Y. congruence. }
  rewrite marshal_array in E. cbv zeta in E. change (0 + size (padding 0 2) + 4) with 4 in E.
  destruct (marshal_all _ _ _ _) as [b1|] eqn:E1; [|discriminate E]. destruct (size b1 <? 2 ^ 32); [|discriminate E]. injection E as <-.
  destruct (element _ u Y vs _ b1 E1 i v V) as (p & x & Ex & Lx & P & R). exists x. split; [exact Ex|]. rewrite L. split; [exact Lx|].
  intros k y Hk. specialize (R k y Hk). rewrite pad_padding in P.
  set (m := 2 ^ dvar_align u) in *.
  assert (PP : pad_to m (pad_to m 4) = pad_to m 4) by (apply (pad_multiple m); apply pow_pos). rewrite PP in P. rewrite <- P.
  replace (pad_to m 4 + p + N.of_nat k) with (N.of_nat (length (int (big_endian fmt) 4 (size b1) ++ padding 4 (dvar_align u)) + (N.to_nat p + k))).
  - apply M. replace (int (big_endian fmt) 4 (size b1) ++ padding 4 (dvar_align u) ++ b1)
      with ((int (big_endian fmt) 4 (size b1) ++ padding 4 (dvar_align u)) ++ b1) by (rewrite <- app_assoc; reflexivity).
    assert (G : forall (h : list BinNums.N) l j, nth_error (h ++ l) (length h + j) = nth_error l j).
    { clear. induction h as [|z h IH]; intros l j; [reflexivity|]. exact (IH l j). }
    rewrite G. exact R.
  - pose proof (pad_padding 4 (dvar_align u)) as T. fold m in T. rewrite <- T. rewrite !app_length, int_length. unfold size. lia.
Qed.
Print Assumptions dvar_array_element.

(** An array of structures of 10 bytes, which are 16 apart from the offset 8 on: the
    calls for two of them, some made anew after the writer has failed, and what the
    signature tells. *)
Example dvar_array_element_case : exists sg e0 e e' n f cs vs l,
  bounded flaky /\ sig_new 0 (print (TArray (TStruct [TBasic BUint64; TBasic BUint16]))) = Ok (inr sg) /\
  enc_new sg DVarLe (mkOut 1 (fun _ => Some 99)) = Ok e0 /\
  l = [(CArray, Break None); (CArray, Continue tt); (CStructure, Continue tt); (CU64 7, Break None); (CU64 5, Continue tt); (CU16 6, Continue tt); (CClose, Continue tt);
       (CStructure, Continue tt); (CU64 8, Continue tt); (CU16 9, Continue tt); (CClose, Continue tt); (CClose, Continue tt)] /\
  history flaky e0 l e /\ inside 0 (succeeded l) = true /\ Forall call_fits (succeeded l) /\
  enc_call flaky e CCommit = Ok (Continue tt, e') /\ counts (succeeded l) cs /\
  vs = [VStruct [VU64 5; VU16 6]; VStruct [VU64 8; VU16 9]] /\ encodes (TArray (TStruct [TBasic BUint64; TBasic BUint16])) (VArray vs) cs /\
  node_at sg 1 = Ok (Some n) /\ node_flags sg 1 = Ok (Some f) /\ f_dynamic f = false /\ n_dvar_size n = 10 /\
  c_dvar_alignment_exp (mkCursor sg 1) = Ok (Some 3) /\ pad_to (2 ^ 3) 4 = 8 /\ pad_to (2 ^ 3) 10 = 16 /\
  map (o_mem (e_out e')) [8; 16; 24; 32; 33] = map Some [5; 6; 8; 9; 0].
Proof.
  do 7 eexists. exists [VStruct [VU64 5; VU16 6]; VStruct [VU64 8; VU16 9]]. eexists. split.
  { intros w idx len k w' H. cbn in H. destruct ((w =? 3) || (w =? 12)); [discriminate|]. injection H as <- _. lia. }
  split; [vm_compute; reflexivity|]. split; [vm_compute; reflexivity|]. split; [reflexivity|]. split.
  { repeat (eapply his_cons; [exact Logic.I|vm_compute; reflexivity|]). apply his_nil. }
  split; [reflexivity|]. split; [repeat constructor|]. split; [vm_compute; reflexivity|].
  split; [apply dvar_counting; repeat constructor|]. split; [reflexivity|]. split.
  { refine (dvar_describes false _ (VArray [VStruct [VU64 5; VU16 6]; VStruct [VU64 8; VU16 9]]) 0 _ _). vm_compute. reflexivity. }
  split; [vm_compute; reflexivity|]. split; [vm_compute; reflexivity|]. split; [vm_compute; reflexivity|]. split; [vm_compute; reflexivity|].
  split; [vm_compute; reflexivity|]. split; [vm_compute; reflexivity|]. split; [vm_compute; reflexivity|]. vm_compute. reflexivity.
Qed.
