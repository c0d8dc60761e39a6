(** C135: what the byte order of a D-Bus message changes. *)
From Verif Require Import Base DbusSpec DbusSigModel IoMapModel IoMapSpec IoMapProofs IoMapProps DvarModel DvarSpec DvarTyping DvarSubs DvarProofs DvarEncode DvarProps DvarLossSpec DvarLoss DvarLossProps DvarTurnSpec DvarTurn.
Local Open Scope N_scope.

(** ** C135 *)

(** The wire formats of a value in the two byte orders have the same size and the
    same bytes, except that integers of 2, 4 or 8 bytes are the other way round. They
    are at offsets that are multiples of their size. What has a format in one of
    the byte orders has one in the other. *)
Theorem dvar_turned : forall t v pos,
  (forall b, marshal false t v pos = Some b -> exists c, marshal true t v pos = Some c /\ turned pos b c /\ size b = size c) /\
  (forall c, marshal true t v pos = Some c -> exists b, marshal false t v pos = Some b /\ turned pos b c /\ size b = size c).
Proof.
  intros t v pos. pose proof (turning v t pos) as H.
  destruct (marshal false t v pos) as [b|], (marshal true t v pos) as [c|]; cbn [both] in H; try contradiction.
  - split; intros x [= <-]; [exists c|exists b]; repeat split; auto; apply (turned_size _ _ _ H).
  - split; discriminate.
Qed.
Print Assumptions dvar_turned.
(** Turning back gives the same bytes, so nothing is lost: the relation is
    symmetric. *)
Theorem dvar_turned_back : forall pos b c, turned pos b c -> turned pos c b.
Proof. exact turned_back. Qed.
Print Assumptions dvar_turned_back.

(** Two encoders of the two byte orders, on any two writers and whatever calls and
    failures there were, were committed after describing the same value. What they wrote has
    the same size, and differs in the order of bytes in integers only. *)
Theorem dvar_byte_orders : forall W W' (I : Write W) (I' : Write W') t v a a',
  wrote I DVarLe t v a -> wrote I' DVarBe t v a' ->
  exists b c, turned 0 b c /\ size b = size c /\ marshal false t v 0 = Some b /\ marshal true t v 0 = Some c /\
    (forall k x, nth_error b k = Some x -> o_mem a (N.of_nat k) = Some x) /\
    (forall k x, nth_error c k = Some x -> o_mem a' (N.of_nat k) = Some x).
Proof.
  assert (G : forall W (I : Write W) fmt t v a, wrote I fmt t v a ->
    exists b, marshal (big_endian fmt) t v 0 = Some b /\ forall k x, nth_error b k = Some x -> o_mem a (N.of_nat k) = Some x).
  { intros W I fmt t v a (fuel & o & sg & e0 & l & e & e' & cs & HB & ES & EN & HH & HI & HF & EC & HC & HE & ->).
    destruct (dvar_committed_bytes W I fuel fmt o t sg e0 l e e' HB ES EN HH HI HF EC) as (cs2 & v2 & b & w & C2 & E2 & M & _ & _ & X).
    rewrite (proj1 dvar_counting _ _ _ HC C2) in HE. destruct (dvar_calls_one_value t v v2 cs2 [] HE ltac:(now rewrite app_nil_r)) as [-> _].
    exists b. auto. }
  intros W W' I I' t v a a' H H'. destruct (G _ _ _ _ _ _ H) as (b & B & X). destruct (G _ _ _ _ _ _ H') as (c & C & X').
  cbn [big_endian] in B, C. pose proof (turning v t 0) as T. rewrite B, C in T. cbn [both] in T.
  exists b, c. repeat split; auto. apply (turned_size _ _ _ T).
Qed.
Print Assumptions dvar_byte_orders.

(** A structure of a 16-bit integer and a string. *)
Example dvar_turned_case :
  marshal false (TStruct [TBasic BUint16; TBasic BString]) (VStruct [VU16 258; VString [97; 98]]) 0 = Some [2; 1; 0; 0; 2; 0; 0; 0; 97; 98; 0] /\
  marshal true (TStruct [TBasic BUint16; TBasic BString]) (VStruct [VU16 258; VString [97; 98]]) 0 = Some [1; 2; 0; 0; 0; 0; 0; 2; 97; 98; 0] /\
  turned 0 [2; 1; 0; 0; 2; 0; 0; 0; 97; 98; 0] [1; 2; 0; 0; 0; 0; 0; 2; 97; 98; 0].
Proof.
  assert (H : forall t v b c, marshal false t v 0 = Some b -> marshal true t v 0 = Some c -> b = b /\ turned 0 b c).
  { intros t v b c B C. pose proof (turning v t 0) as T. rewrite B, C in T. auto. }
  split; [vm_compute; reflexivity|]. split; [vm_compute; reflexivity|].
  apply (H (TStruct [TBasic BUint16; TBasic BString]) (VStruct [VU16 258; VString [97; 98]])); vm_compute; reflexivity.
Qed.
(** Bytes that are no integer, or an integer at an odd place, may not be turned. *)
Example turned_not : ~ turned 0 [1; 2; 3] [3; 2; 1] /\ ~ turned 1 [1; 2] [2; 1].
Proof.
  split.
  - intros H. remember [1; 2; 3] as b eqn:B. remember [3; 2; 1] as c eqn:C. remember 0 as p eqn:P. destruct H as [|? x b c H|p n i b c K S M H]; [discriminate|congruence|].
    apply (f_equal (@length N)) in B as L. rewrite app_length in L. cbn in L. unfold size in S.
    destruct i as [|x [|y [|z i]]]; cbn in S; try lia. cbn in B, C. congruence. cbn in L. destruct i; cbn in L, S; lia.
  - intros H. remember [1; 2] as b eqn:B. remember [2; 1] as c eqn:C. remember 1 as p eqn:P. destruct H as [|? x b c H|p n i b c K S M H]; [discriminate|congruence|].
    subst p. destruct K as [-> | [-> | ->]]; discriminate M.
Qed.
(** Two encoders, each on a vector. *)
Example dvar_byte_orders_case : exists t v a a',
  wrote (vec_write (fun c => c)) DVarLe t v a /\ wrote (vec_write (fun c => c)) DVarBe t v a' /\
  vec_contents a = map Some [4; 0; 0; 0; 5; 0; 6; 0] /\ vec_contents a' = map Some [0; 0; 0; 4; 0; 5; 0; 6].
Proof.
  exists (TArray (TBasic BUint16)), (VArray [VU16 5; VU16 6]). eexists. eexists. split; [|split].
  - exists 0%nat, (vec_of [] 0). do 2 eexists. exists (map (fun c => (c, Continue tt)) (describe (VArray [VU16 5; VU16 6]))). do 3 eexists.
    split; [apply vec_bounded|]. split; [vm_compute; reflexivity|]. split; [vm_compute; reflexivity|]. split.
    { repeat (eapply his_cons; [exact Logic.I|vm_compute; reflexivity|]). apply his_nil. }
    split; [reflexivity|]. split; [repeat constructor|]. split; [vm_compute; reflexivity|].
    split; [apply dvar_counting; repeat constructor|]. split; [|reflexivity].
    refine (dvar_describes false (TArray (TBasic BUint16)) (VArray [VU16 5; VU16 6]) 0 [4; 0; 0; 0; 5; 0; 6; 0] _). vm_compute. reflexivity.
  - exists 0%nat, (vec_of [] 0). do 2 eexists. exists (map (fun c => (c, Continue tt)) (describe (VArray [VU16 5; VU16 6]))). do 3 eexists.
    split; [apply vec_bounded|]. split; [vm_compute; reflexivity|]. split; [vm_compute; reflexivity|]. split.
    { repeat (eapply his_cons; [exact Logic.I|vm_compute; reflexivity|]). apply his_nil. }
    split; [reflexivity|]. split; [repeat constructor|]. split; [vm_compute; reflexivity|].
    split; [apply dvar_counting; repeat constructor|]. split; [|reflexivity].
    refine (dvar_describes false (TArray (TBasic BUint16)) (VArray [VU16 5; VU16 6]) 0 [4; 0; 0; 0; 5; 0; 6; 0] _). vm_compute. reflexivity.
  - split; vm_compute; reflexivity.
Qed.
