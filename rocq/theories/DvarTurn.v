(** Proofs about byte orders of D-Bus messages. *)
From Verif Require Import Base DbusSpec DbusSigTheory DbusSigProofs IoMapProofs DvarModel DvarSpec DvarProofs DvarEncode DvarLossSpec DvarLoss DvarFixed DvarTurnSpec.
Local Open Scope N_scope.

Lemma size_one (x : N) l : size (x :: l) = 1 + size l.
Proof. unfold size. cbn [length]. lia. Qed.
Lemma turned_app pos b c : turned pos b c -> forall b' c', turned (pos + size b) b' c' -> turned pos (b ++ b') (c ++ c').
Proof.
  induction 1 as [pos|pos x b c T IH|pos n i b c K S M T IH]; intros b' c' T'.
  - change (size (@nil N)) with 0 in T'. rewrite N.add_0_r in T'. exact T'.
  - cbn [app]. constructor. apply IH. rewrite size_one in T'. replace (pos + 1 + size b) with (pos + (1 + size b)) by lia. exact T'.
  - rewrite <- !app_assoc. apply (turned_int pos n); auto. apply IH. rewrite size_app, S in T'. replace (pos + n + size b) with (pos + (n + size b)) by lia. exact T'.
Qed.
Lemma turned_same b : forall pos, turned pos b b.
Proof. induction b; intros pos; constructor; auto. Qed.
Lemma turned_size pos b c : turned pos b c -> size b = size c.
Proof. induction 1; rewrite ?size_one, ?size_app; [reflexivity|lia|]. unfold size in *. rewrite rev_length. lia. Qed.
Lemma turned_back pos b c : turned pos b c -> turned pos c b.
Proof.
  induction 1 as [pos|pos x b c T IH|pos n i b c K S M T IH]; [constructor|constructor; exact IH|].
  rewrite <- (rev_involutive i) at 2. apply (turned_int pos n); auto. unfold size in *. rewrite rev_length. exact S.
Qed.
Lemma turned_number pos a k v : a = 1 \/ a = 2 \/ a = 3 -> k = N.to_nat (2 ^ a) ->
  turned (pos + size (padding pos a)) (int false k v) (int true k v).
Proof.
  intros A ->. pose proof (turned_int (pos + size (padding pos a)) (2 ^ a) (int false (N.to_nat (2 ^ a)) v) [] []) as T.
  rewrite !app_nil_r in T. apply T; [|rewrite size_int; lia| |constructor].
  - destruct A as [-> | [-> | ->]]; auto.
  - rewrite pad_padding. unfold pad_to. apply N.mod_mul, N.pow_nonzero. discriminate.
Qed.

Definition both pos (o o' : option (list N)) : Prop :=
  match o, o' with Some b, Some c => turned pos b c | None, None => True | _, _ => False end.
Definition turns v := forall t pos, both pos (marshal false t v pos) (marshal true t v pos).
Lemma turns_all vs : Forall turns vs -> forall ts pos, both pos (marshal_all false ts vs pos) (marshal_all true ts vs pos).
Proof.
  induction 1 as [|v vs Hv F IH]; intros [|t ts] pos; cbn [marshal_all]; try exact Logic.I; try constructor.
  pose proof (Hv t pos) as H. destruct (marshal false t v pos) as [b|], (marshal true t v pos) as [c|]; cbn in H; try contradiction; [|exact Logic.I].
  rewrite <- (turned_size _ _ _ H). specialize (IH ts (pos + size b)).
  destruct (marshal_all false ts vs _) as [b'|], (marshal_all true ts vs _) as [c'|]; cbn in IH; try contradiction; [|exact Logic.I].
  cbn. apply turned_app; assumption.
Qed.
Lemma turned_counted1 pos s : turned pos (counted false 1 s) (counted true 1 s).
Proof. apply turned_same. Qed.
Lemma turned_padded pos a b c : turned (pos + size (padding pos a)) b c -> turned pos (padding pos a ++ b) (padding pos a ++ c).
Proof. intros T. apply turned_app; [apply turned_same|exact T]. Qed.
Lemma turned_counted4 pos s : turned (pos + size (padding pos 2)) (counted false 4 s) (counted true 4 s).
Proof. unfold counted. apply turned_app; [apply turned_number; auto|apply turned_same]. Qed.

Theorem turning v : turns v.
Proof.
  revert v. refine (value_rect' turns _ _ _ _ _); [intros v|intros u v IH|intros vs IH|intros vs IH|intros k v IHk IHv].
  - destruct v; try exact Logic.I; intros [[]| | | | |] pos; try exact Logic.I; cbn [marshal];
      match goal with |- context [?x <? ?y] => destruct (x <? y) end; try exact Logic.I; cbn [both];
      first [apply turned_padded, turned_number; auto | apply turned_padded, turned_counted4 | apply turned_counted1].
  - intros [[]| | | | |] pos; try exact Logic.I. cbn [marshal]. destruct (size (print u) <? 2 ^ 8); [|exact Logic.I]. cbv zeta.
    change (counted true 1 (print u)) with (counted false 1 (print u)). specialize (IH u (pos + size (counted false 1 (print u)))).
    destruct (marshal false u v _) as [b|], (marshal true u v _) as [c|]; cbn [both] in *; try contradiction; [|exact Logic.I].
    apply turned_app; [apply turned_same|exact IH].
  - intros [[]| |u| | |] pos; try exact Logic.I. rewrite !marshal_array. cbv zeta.
    set (s := pos + size (padding pos 2) + 4). pose proof (turns_all vs IH (repeat u (length vs)) (s + size (padding s (dvar_align u)))) as H.
    destruct (marshal_all false _ vs _) as [b|], (marshal_all true _ vs _) as [c|]; cbn [both] in *; try contradiction; [|exact Logic.I].
    rewrite <- (turned_size _ _ _ H). destruct (size b <? 2 ^ 32); [|exact Logic.I]. cbn [both].
    apply turned_padded. apply turned_app; [apply turned_number; auto|]. rewrite size_int. apply turned_padded. exact H.
  - intros [[]| |u| |ts|] pos; try exact Logic.I. rewrite !marshal_struct.
    pose proof (turns_all vs IH ts (pos + size (padding pos 3))) as H.
    destruct (marshal_all false _ vs _) as [b|], (marshal_all true _ vs _) as [c|]; cbn [both] in *; try contradiction; [|exact Logic.I]. apply turned_padded. exact H.
  - intros [[]| |u| |ts|kb u] pos; try exact Logic.I. rewrite !marshal_dict.
    pose proof (turns_all [k; v] ltac:(auto) [TBasic kb; u] (pos + size (padding pos 3))) as H.
    destruct (marshal_all false _ [k; v] _) as [b|], (marshal_all true _ [k; v] _) as [c|]; cbn [both] in *; try contradiction; [|exact Logic.I]. apply turned_padded. exact H.
Qed.
