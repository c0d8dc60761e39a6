(** C124: comparisons and debug output of OS strings. *)
From Coq Require Import String DecimalString Lia.
From Verif Require Import Base DvarDecSpec EtcModel OsStrModel.
From Verif Require ArgsSyntax LossyProofs.
Local Open Scope N_scope.

(** ** Specification *)

(** [a] precedes [b] in the order of a dictionary: it is a proper beginning of
    [b], or smaller at the first difference. *)
Definition precedes (a b : list N) : Prop :=
  (exists x r, b = a ++ x :: r) \/
  (exists p x y r s, a = p ++ x :: r /\ b = p ++ y :: s /\ x < y).
(** A text as bytes. *)
Definition utf8s (cs : list N) : list N := flat_map utf8 cs.

(** The bytes of a text of ASCII characters. *)
Definition chars (s : string) : list N := map (fun c => N.of_nat (Ascii.nat_of_ascii c)) (list_ascii_of_string s).
(** A number in decimal. *)
Definition decimal (b : N) : string := NilZero.string_of_uint (N.to_uint b).
Definition newline : string := String (Ascii.ascii_of_nat 10) "".
(** How Rust shows a structure [OsStr] whose field [inner] is a slice, on one
    line and on several. *)
Definition shown (o : list N) : string :=
  ("OsStr { inner: [" ++ String.concat ", " (map decimal o) ++ "] }")%string.
Definition shown_on_lines (o : list N) : string :=
  ("OsStr {" ++ newline ++
   "    inner: [" ++ match o with
                     | [] => ""
                     | _ => newline ++ String.concat "" (map (fun b => "        " ++ decimal b ++ "," ++ newline) o) ++ "    "
                     end ++ "]," ++ newline ++ "}")%string.

(** ** Proofs *)

Lemma precedes_nil b : precedes [] b <-> b <> [].
Proof.
  split.
  - intros [(x & r & ->)|(p & x & y & r & s & E & _)]; [discriminate|]. now destruct p.
  - destruct b as [|x b]; [easy|]. left. now exists x, b.
Qed.
Lemma precedes_to_nil a : ~ precedes a [].
Proof. intros [(x & r & E)|(p & x & y & r & s & _ & E & _)]; [now destruct a|now destruct p]. Qed.
Lemma precedes_cons x y a b : precedes (x :: a) (y :: b) <-> x < y \/ (x = y /\ precedes a b).
Proof.
  split.
  - intros [(z & r & [= -> ->])|(p & u & v & r & s & Ea & Eb & L)].
    + right. split; [reflexivity|]. left. now exists z, r.
    + destruct p as [|w p]; cbn in Ea, Eb; injection Ea as -> ->; injection Eb as -> ->; [now left|].
      right. split; [reflexivity|]. right. now exists p, u, v, r, s.
  - intros [L|(-> & [(z & r & ->)|(p & u & v & r & s & -> & -> & L)])].
    + right. now exists [], x, y, a, b.
    + left. now exists z, r.
    + right. now exists (y :: p), u, v, r, s.
Qed.

Lemma cmp_cons x y a b : osstr_cmp (x :: a) (y :: b) = match x ?= y with Eq => osstr_cmp a b | c => c end.
Proof. unfold osstr_cmp. cbn [length Nat.min firstn memcmp Nat.compare]. now destruct (x ?= y). Qed.
Lemma cmp_lex a : forall b, osstr_cmp a b = ArgsSyntax.str_cmp a b.
Proof.
  induction a as [|x a IH]; intros [|y b]; try reflexivity.
  rewrite cmp_cons. unfold ArgsSyntax.str_cmp in *. cbn [ArgsSyntax.lex_cmp]. now rewrite IH.
Qed.
Lemma cmp_spec a : forall b,
  (osstr_cmp a b = Lt <-> precedes a b) /\ (osstr_cmp a b = Eq <-> a = b) /\ (osstr_cmp a b = Gt <-> precedes b a).
Proof.
  induction a as [|x a IH]; intros [|y b].
  - rewrite precedes_nil. cbn. repeat split; easy.
  - rewrite !precedes_nil. pose proof (precedes_to_nil (y :: b)). cbn. repeat split; easy.
  - rewrite !precedes_nil. pose proof (precedes_to_nil (x :: a)). cbn. repeat split; easy.
  - rewrite cmp_cons, !precedes_cons. destruct (IH b) as (L & E & G).
    destruct (N.compare_spec x y) as [-> |H|H].
    + rewrite L, E, G. split; [|split].
      * split; [now right|intros [?|[_ ?]]; [lia|assumption]].
      * split; [now intros -> |now intros [= ->]].
      * split; [now right|intros [?|[_ ?]]; [lia|assumption]].
    + split; [|split].
      * split; [now left|easy].
      * split; [easy|intros [= -> ->]; lia].
      * split; [easy|intros [?|[-> _]]; lia].
    + split; [|split].
      * split; [easy|intros [?|[-> _]]; lia].
      * split; [easy|intros [= -> ->]; lia].
      * split; [now left|easy].
Qed.
Lemma eq_spec a : forall b, osstr_eq a b = true <-> a = b.
Proof.
  induction a as [|x a IH]; intros [|y b]; try easy.
  unfold osstr_eq in *. cbn [length Nat.eqb all_equal].
  rewrite Bool.andb_true_iff, Bool.andb_true_iff, N.eqb_eq. specialize (IH b). rewrite Bool.andb_true_iff in IH. split.
  - intros (? & -> & ?). f_equal. now apply IH.
  - intros [= -> ->]. split; [|split]; try easy; now apply IH.
Qed.

(** Characters compare as their bytes, whatever follows. *)
Lemma utf8_less c d x y : c < d -> d < 1114112 -> precedes (utf8 c ++ x) (utf8 d ++ y).
Proof.
  intros L D. unfold utf8.
  destruct (N.ltb_spec c 128), (N.ltb_spec d 128); try lia; cbn [app]; rewrite ?precedes_cons; [now left|..].
  1: destruct (N.ltb_spec d 2048); [|destruct (N.ltb_spec d 65536)]; cbn [app]; rewrite precedes_cons; left; lia.
  destruct (N.ltb_spec c 2048), (N.ltb_spec d 2048); try lia.
  - cbn [app]. rewrite !precedes_cons. zify. Z.to_euclidean_division_equations. lia.
  - destruct (N.ltb_spec d 65536); cbn [app]; rewrite precedes_cons; left; zify; Z.to_euclidean_division_equations; lia.
  - destruct (N.ltb_spec c 65536), (N.ltb_spec d 65536); try lia; cbn [app].
    + rewrite !precedes_cons.
      assert (c / 4096 < d / 4096 \/ c / 4096 = d / 4096 /\ (c / 64 mod 64 < d / 64 mod 64 \/ c / 64 mod 64 = d / 64 mod 64 /\ c mod 64 < d mod 64)) as A
        by (zify; Z.to_euclidean_division_equations; lia).
      lia.
    + rewrite precedes_cons. left. zify; Z.to_euclidean_division_equations; lia.
    + rewrite !precedes_cons.
      assert (c / 262144 < d / 262144 \/ c / 262144 = d / 262144 /\ (c / 4096 mod 64 < d / 4096 mod 64 \/ c / 4096 mod 64 = d / 4096 mod 64 /\
        (c / 64 mod 64 < d / 64 mod 64 \/ c / 64 mod 64 = d / 64 mod 64 /\ c mod 64 < d mod 64))) as A
        by (zify; Z.to_euclidean_division_equations; lia).
      lia.
Qed.
Lemma precedes_app p a b : precedes (p ++ a) (p ++ b) <-> precedes a b.
Proof. induction p as [|x p IH]; [reflexivity|]. cbn [app]. rewrite precedes_cons, IH. split; [intros [?|[_ ?]]; [lia|assumption]|now right]. Qed.
Lemma precedes_not a b : precedes a b -> precedes b a -> False.
Proof. intros L G. apply (cmp_spec a b) in L. apply (cmp_spec a b) in G. congruence. Qed.
Lemma precedes_irrefl a : ~ precedes a a.
Proof. intros H. exact (precedes_not _ _ H H). Qed.

Lemma order_texts a : forall b, Forall scalar a -> Forall scalar b -> precedes a b -> precedes (utf8s a) (utf8s b).
Proof.
  induction a as [|c a IH]; intros [|d b] Ha Hb H.
  - now apply precedes_to_nil in H.
  - apply precedes_nil. apply Forall_inv in Hb. cbn. pose proof (LossyProofs.char_nonempty d Hb). now destruct (utf8 d).
  - now apply precedes_to_nil in H.
  - cbn. apply precedes_cons in H. destruct H as [L|[-> H]].
    + apply utf8_less; [assumption|]. apply Forall_inv in Hb. unfold scalar in Hb. lia.
    + apply precedes_app. apply IH; [now apply Forall_inv_tail in Ha|now apply Forall_inv_tail in Hb|assumption].
Qed.
Lemma total a b : precedes a b \/ a = b \/ precedes b a.
Proof. destruct (cmp_spec a b) as (L & E & G). destruct (osstr_cmp a b); [right; left; now apply E|left; now apply L|right; right; now apply G]. Qed.

(** Reading the decimal digits at the beginning of a text. *)
Definition digit (c : N) : bool := (48 <=? c) && (c <=? 57).
Fixpoint number (acc : N) (l : list N) : N * list N :=
  match l with
  | c :: l' => if digit c then number (10 * acc + (c - 48)) l' else (acc, l)
  | [] => (acc, l)
  end.
Lemma number_byte b c l : b < 256 -> digit c = false -> number 0 (byte_debug b ++ c :: l) = (b, c :: l).
Proof.
  intros H D. unfold byte_debug.
  destruct (N.ltb_spec b 10); [|destruct (N.ltb_spec b 100)]; cbn [app number];
    repeat match goal with |- context [digit (48 + ?x)] =>
      replace (digit (48 + x)) with true by (symmetry; apply andb_true_intro; split; apply N.leb_le; zify; Z.to_euclidean_division_equations; lia) end;
    rewrite D; f_equal; zify; Z.to_euclidean_division_equations; lia.
Qed.
Lemma byte_debug_cons b : b < 256 -> exists d l, byte_debug b = d :: l /\ digit d = true.
Proof.
  intros H. unfold byte_debug.
  destruct (N.ltb_spec b 10); [|destruct (N.ltb_spec b 100)]; eexists _, _; (split; [reflexivity|]);
    apply andb_true_intro; split; apply N.leb_le; zify; Z.to_euclidean_division_equations; lia.
Qed.
Lemma bytes_apart b b' c c' l l' : b < 256 -> b' < 256 -> digit c = false -> digit c' = false ->
  byte_debug b ++ c :: l = byte_debug b' ++ c' :: l' -> b = b' /\ c = c' /\ l = l'.
Proof.
  intros H H' D D' E. apply (f_equal (number 0)) in E. rewrite !number_byte in E by assumption. now injection E.
Qed.

Lemma entries_tail l : forall l' r r', Forall (fun b => b < 256) l -> Forall (fun b => b < 256) l' ->
  entries false l ++ 93 :: r = entries false l' ++ 93 :: r' -> l = l'.
Proof.
  induction l as [|b l IH]; intros [|b' l'] r r' F F' E; [reflexivity|discriminate|discriminate|].
  cbn in E. injection E as E. rewrite <- !app_assoc in E.
  inversion F; subst. inversion F'; subst.
  assert (forall m s, exists c t, entries false m ++ 93 :: s = c :: t /\ digit c = false) as C
    by (intros [|? ?] s; cbn; eexists _, _; split; reflexivity).
  destruct (C l r) as (c & t & C1 & D1), (C l' r') as (c' & t' & C2 & D2). rewrite C1, C2 in E.
  apply bytes_apart in E; try assumption. destruct E as (-> & <- & <-). f_equal. eapply IH; try assumption. now rewrite C1, C2.
Qed.
Lemma entries_same l : forall l' r r', Forall (fun b => b < 256) l -> Forall (fun b => b < 256) l' ->
  entries true l ++ 93 :: r = entries true l' ++ 93 :: r' -> l = l'.
Proof.
  intros l' r r' F F' E. destruct l as [|b l], l' as [|b' l']; [reflexivity|..].
  - exfalso. inversion F'; subst. cbn in E. destruct (byte_debug_cons b') as (d & t & B & D); [assumption|]. rewrite B in E. cbn in E. injection E as <- E. discriminate.
  - exfalso. inversion F; subst. cbn in E. destruct (byte_debug_cons b) as (d & t & B & D); [assumption|]. rewrite B in E. cbn in E. injection E as -> E. discriminate.
  - apply (entries_tail _ _ r r' F F'). cbn. f_equal. f_equal. exact E.
Qed.
Lemma lines_same l : forall l' r r', Forall (fun b => b < 256) l -> Forall (fun b => b < 256) l' ->
  entry_lines l ++ repeat 32 4 ++ 93 :: r = entry_lines l' ++ repeat 32 4 ++ 93 :: r' -> l = l'.
Proof.
  induction l as [|b l IH]; intros [|b' l'] r r' F F' E; [reflexivity|discriminate|discriminate|].
  cbn in E. injection E as E. rewrite <- !app_assoc in E. cbn [app] in E.
  inversion F; subst. inversion F'; subst.
  apply bytes_apart in E; try assumption; try reflexivity. destruct E as (-> & _ & [= E]). f_equal. now apply (IH _ r r').
Qed.

Lemma chars_app a b : chars (a ++ b) = (chars a ++ chars b)%list.
Proof. unfold chars. induction a as [|c a IH]; [reflexivity|]. cbn. now rewrite IH. Qed.
Lemma chars_byte b : b < 256 -> chars (decimal b) = byte_debug b.
Proof.
  intros H. rewrite <- (N2Nat.id b). assert (N.to_nat b < 256)%nat as L by lia. revert L. generalize (N.to_nat b) as n. clear.
  intros n L. assert (Forall (fun n => chars (decimal (N.of_nat n)) = byte_debug (N.of_nat n)) (seq 0 256)) as F.
  { apply Forall_forall. intros m M. pose proof (forallb_forall
      (fun n => if list_eq_dec N.eq_dec (chars (decimal (N.of_nat n))) (byte_debug (N.of_nat n)) then true else false) (seq 0 256)) as [A _].
    specialize (A ltac:(vm_compute; reflexivity) m M). cbn in A. now destruct (list_eq_dec _ _ _). }
  rewrite Forall_forall in F. apply F. apply in_seq. lia.
Qed.
Lemma entries_text l : Forall (fun b => b < 256) l ->
  chars (String.concat ", " (map decimal l)) = entries true l
  /\ (l <> [] -> entries false l = [44; 32] ++ entries true l).
Proof.
  induction 1 as [|b l B F [IH _]]; [split; [reflexivity|easy]|]. split; [|reflexivity].
  cbn [map String.concat entries]. destruct l as [|c l]; [cbn; rewrite app_nil_r; now apply chars_byte|].
  change (map decimal (c :: l)) with (decimal c :: map decimal l) in IH |- *. cbv iota.
  rewrite !chars_app, IH, chars_byte by assumption. reflexivity.
Qed.
Lemma concat_nil x (l : list string) : String.concat "" (x :: l) = (x ++ String.concat "" l)%string.
Proof. destruct l; [|reflexivity]. cbn. induction x as [|c x IH]; [reflexivity|]. cbn. now rewrite <- IH. Qed.
Lemma lines_text l : Forall (fun b => b < 256) l ->
  chars (String.concat "" (map (fun b => "        " ++ decimal b ++ "," ++ newline)%string l)) = entry_lines l.
Proof.
  induction 1 as [|b l B F IH]; [reflexivity|]. cbn [map entry_lines]. rewrite concat_nil, !chars_app, IH, chars_byte by assumption.
  now rewrite <- !app_assoc.
Qed.

(** ** C124 *)

(** OS strings are equal exactly if their bytes are, and ordered as in a
    dictionary of byte strings; both ways of ordering agree, and so does the
    order by which commands and flags are sorted. *)
Theorem osstr_compare a b :
  (osstr_eq a b = true <-> a = b) /\
  (osstr_cmp a b = Lt <-> precedes a b) /\
  (osstr_cmp a b = Eq <-> osstr_eq a b = true) /\
  (osstr_cmp a b = Gt <-> precedes b a) /\
  osstr_partial_cmp a b = Some (osstr_cmp a b) /\
  ArgsSyntax.str_cmp a b = osstr_cmp a b.
Proof.
  destruct (cmp_spec a b) as (L & E & G). rewrite eq_spec.
  repeat (split; [first [assumption|reflexivity]|]). symmetry. apply cmp_lex.
Qed.
Print Assumptions osstr_compare.

(** It is a total order. *)
Theorem osstr_order a b c :
  osstr_cmp b a = CompOpp (osstr_cmp a b) /\
  (osstr_cmp a b <> Gt -> osstr_cmp b c <> Gt -> osstr_cmp a c <> Gt).
Proof.
  assert (osstr_cmp b a = CompOpp (osstr_cmp a b)) as A.
  { destruct (cmp_spec a b) as (L & E & G), (cmp_spec b a) as (L' & E' & G').
    destruct (osstr_cmp a b); cbn.
    - apply E'. symmetry. now apply E.
    - apply G'. now apply L.
    - apply L'. now apply G. }
  split; [exact A|]. clear A. revert b c. induction a as [|x a IH]; intros [|y b] [|z c]; try easy.
  rewrite !cmp_cons. specialize (IH b c).
  destruct (N.compare_spec x y), (N.compare_spec y z), (N.compare_spec x z); subst; try easy; try lia; auto.
Qed.
Print Assumptions osstr_order.

(** Texts are ordered by their characters: first the one with the smaller code
    point at the first difference, and a text before those that continue it. *)
Theorem osstr_order_text a b : Forall scalar a -> Forall scalar b ->
  (osstr_cmp (from_str (utf8s a)) (from_str (utf8s b)) = Lt <-> precedes a b) /\
  (osstr_eq (from_str (utf8s a)) (from_str (utf8s b)) = true <-> a = b).
Proof.
  intros Ha Hb. unfold from_str, from_encoded_bytes_unchecked. destruct (cmp_spec (utf8s a) (utf8s b)) as (L & _).
  rewrite L, eq_spec. destruct (total a b) as [H|[-> |H]].
  - pose proof (order_texts a b Ha Hb H) as K. split; [easy|]. split.
    + intros E. rewrite E in K. now apply precedes_irrefl in K.
    + intros ->. now apply precedes_irrefl in H.
  - split; [|easy]. split; intros H; now apply precedes_irrefl in H.
  - pose proof (order_texts b a Hb Ha H) as K. split.
    + split; intros Q; exfalso; [exact (precedes_not _ _ Q K)|exact (precedes_not _ _ Q H)].
    + split; [intros E; rewrite E in K; now apply precedes_irrefl in K|intros ->; now apply precedes_irrefl in H].
Qed.
Print Assumptions osstr_order_text.

(** Debug output is that of a structure with a slice of numbers. *)
Theorem osstr_debug_text o : Forall (fun x => x < 256) o ->
  osstr_debug false o = chars (shown o) /\ osstr_debug true o = chars (shown_on_lines o).
Proof.
  intros F. split.
  - unfold shown. rewrite !chars_app, (proj1 (entries_text o F)). reflexivity.
  - unfold shown_on_lines. destruct o as [|b o]; [reflexivity|].
    rewrite !chars_app, lines_text by assumption. unfold osstr_debug. rewrite <- !app_assoc. reflexivity.
Qed.
Print Assumptions osstr_debug_text.

(** Different OS strings have different debug output, in either form, also if
    they are no text. *)
Theorem osstr_debug_apart alternate a b : Forall (fun x => x < 256) a -> Forall (fun x => x < 256) b ->
  osstr_debug alternate a = osstr_debug alternate b -> a = b.
Proof.
  intros Fa Fb. unfold osstr_debug. destruct alternate; intros E.
  - do 3 apply app_inv_head in E. apply app_inv_head in E.
    destruct a as [|x a], b as [|y b]; [reflexivity|discriminate|discriminate|].
    rewrite <- !app_assoc in E. apply app_inv_head in E. exact (lines_same _ _ _ _ Fa Fb E).
  - do 4 apply app_inv_head in E. exact (entries_same _ _ _ _ Fa Fb E).
Qed.
Print Assumptions osstr_debug_apart.

(** U+FF5E is encoded with fewer bytes than U+1F600, and precedes it; in UTF-16
    it would not.  Bytes that are no text. *)
Example osstr_case :
  Forall scalar [97; 0xff5e] /\ Forall scalar [97; 0x1f600; 98] /\ precedes [97; 0xff5e] [97; 0x1f600; 98]
  /\ osstr_cmp (utf8s [97; 0xff5e]) (utf8s [97; 0x1f600; 98]) = Lt
  /\ osstr_cmp [0x80] [0x7f; 255] = Gt /\ osstr_cmp [1; 2] [1; 2; 0] = Lt
  /\ Forall (fun x => x < 256) [0; 42; 255]
  /\ osstr_debug false [0; 42; 255] = chars "OsStr { inner: [0, 42, 255] }".
Proof.
  repeat split; try (repeat constructor; unfold scalar; lia); try (vm_compute; reflexivity).
  right. exists [97], 0xff5e, 0x1f600, [], [98]. repeat split.
Qed.
