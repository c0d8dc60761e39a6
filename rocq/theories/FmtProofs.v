(** Proofs about the executable formats. *)
From Coq Require Import String.
From Coq Require Import List.
From Verif Require Import Base FfiSpec FmtSpec LayModel FfiModel FfiProofs FmtModel.

(* ------------------------------------------------------------------ *)
(** ** Checksum *)

Lemma sum16_fold_words n : forall data acc, length data <= n -> (acc < 2 ^ 16)%N ->
  sum16_fold (chunks2 data) acc = Ok ((acc + total (words data)) mod 2 ^ 16)%N.
Proof.
  induction n as [|n IH]; intros [|a [|b data]] acc L A; cbn [length] in L; try lia;
    cbn [chunks2 sum16_fold words total fold_right].
  1-2: now rewrite N.add_0_r, N.mod_small.
  - unfold sum16_step. cbn [bind]. now rewrite N.add_0_r.
  - unfold sum16_step. cbn [bind].
    rewrite IH by (try lia; now apply N.mod_upper_bound).
    rewrite N.add_mod_idemp_l by easy. do 2 f_equal.
    cbn [of_le]. rewrite N.mul_0_r, N.add_0_r. fold (total (words data)). lia.
Qed.

Lemma sum16_words data : sum16 data = Ok (total (words data) mod 2 ^ 16)%N.
Proof. unfold sum16. now rewrite (sum16_fold_words (length data)) by easy. Qed.

Lemma words_app n : forall a b, length a <= n -> Nat.Even (length a) ->
  words (a ++ b) = words a ++ words b.
Proof.
  induction n as [|n IH]; intros [|x [|y a]] b L E; cbn [length] in *; try easy; try lia.
  - destruct E as [k E]. lia.
  - cbn [app words]. rewrite IH; [easy|lia|]. now apply Nat.Even_succ_succ.
Qed.

Lemma total_app a b : total (a ++ b) = (total a + total b)%N.
Proof. induction a as [|x a IH]; [easy|]. cbn. fold (total (a ++ b)) (total a). lia. Qed.

(* ------------------------------------------------------------------ *)
(** ** Members *)

Definition is_number (m : mty) : bool :=
  match m with Le _ _ | Int _ _ => true | _ => false end.

Fixpoint described_from (h : host) (off : nat) (ms : list (string * mty)) : table :=
  match ms with
  | [] => []
  | (n, m) :: ms =>
      let o := round_up off (align_of (ty_of h m)) in
      {| name := n; start := o; len := size_of (ty_of h m); numeric := is_number m |}
      :: described_from h (o + size_of (ty_of h m)) ms
  end.

(** What the declaration makes of its members on a host. *)
Definition described (h : host) (d : decl) : table := described_from h 0 (members d).

Lemma described_nth h ms : forall off i e,
  nth_error (described_from h off ms) i = Some e ->
  nth i (offsets false off (map (fun m => ty_of h (snd m)) ms)) 0 = start e
  /\ size_of (nth i (map (fun m => ty_of h (snd m)) ms) (Prim 0 1)) = len e
  /\ exists m, nth_error ms i = Some (name e, m) /\ numeric e = is_number m
               /\ len e = size_of (ty_of h m).
Proof.
  induction ms as [|[n m] ms IH]; intros off [|i] e E; try easy; cbn in E.
  - injection E as <-. cbn. repeat split. exists m. easy.
  - apply IH in E. cbn. exact E.
Qed.

Lemma described_names h ms : forall off, map name (described_from h off ms) = map fst ms.
Proof. induction ms as [|[n m] ms IH]; intros off; [easy|]. cbn. now rewrite IH. Qed.

Lemma index_nth ms : NoDup (map fst ms) -> forall i n m,
  nth_error ms i = Some (n, m) -> index n ms = Some i.
Proof.
  induction ms as [|[n0 m0] ms IH]; intros D [|i] n m E; try easy; cbn in E.
  - injection E as -> ->. cbn. now rewrite String.eqb_refl.
  - inversion D as [|x y NI D']; subst. cbn.
    replace (String.eqb n0 n) with false.
    + now rewrite (IH D' i n m).
    + symmetry. apply String.eqb_neq. intros ->. apply NI. cbn.
      change n with (fst (n, m)). apply in_map. now apply nth_error_In with i.
Qed.

(** Reading a member reads the bytes at its place. *)
Lemma member_slice h d e i o : NoDup (map fst (members d)) ->
  nth_error (described h d) i = Some e ->
  index (name e) (members d) = Some i
  /\ member h d (name e) o = Some (slice o (start e) (start e + len e)).
Proof.
  intros D E. destruct (described_nth _ _ _ _ _ E) as (O & S & m & N & _ & _).
  assert (I : index (name e) (members d) = Some i) by (eapply index_nth; eassumption).
  split; [easy|]. unfold member. rewrite I. unfold field. cbn [decl_ty offsets_of fields_of].
  now rewrite O, S.
Qed.

Lemma slice_map {A B} (f : A -> B) l i j : slice (map f l) i j = map f (slice l i j).
Proof. unfold slice. now rewrite skipn_map, firstn_map. Qed.

Lemma slice_len {A} (l : list A) i n : i + n <= length l -> length (slice l i (i + n)) = n.
Proof. intros H. unfold slice. rewrite firstn_length, skipn_length. lia. Qed.

Lemma bytes_slice l i j : bytes l -> bytes (slice l i j).
Proof.
  intros B. unfold slice. apply Forall_forall. intros x I.
  unfold bytes in B. rewrite Forall_forall in B. apply B.
  rewrite <- (firstn_skipn i l). apply in_or_app. right.
  rewrite <- (firstn_skipn (j - i) (skipn i l)). apply in_or_app. now left.
Qed.

Lemma of_le_little l : of_le l = little l.
Proof. induction l as [|b l IH]; [easy|]. cbn [of_le little]. now rewrite IH. Qed.

Lemma uint_value h n l : length l = n -> bytes l ->
  value h LittleEndian (uint n) (map Some l) = Some (Z.of_N (little l)).
Proof.
  intros L B. rewrite <- (app_nil_r (map Some l)).
  rewrite value_object by easy. cbn. now rewrite of_le_little.
Qed.

(** A little-endian member without padding. *)
Lemma number_slice h d e i n a l : NoDup (map fst (members d)) ->
  nth_error (described h d) i = Some e ->
  nth_error (members d) i = Some (name e, Le n a) -> len e = n ->
  start e + len e <= length l -> bytes l ->
  number h d (name e) (map Some l) = Some (Z.of_N (little (slice l (start e) (start e + len e)))).
Proof.
  intros D E M LE B BL. destruct (member_slice h d e i (map Some l) D E) as [I R].
  unfold number. rewrite I, R, M, slice_map. apply uint_value.
  - rewrite slice_len by easy. easy.
  - now apply bytes_slice.
Qed.

(* ------------------------------------------------------------------ *)
(** ** Building *)

Fixpoint sums (off : nat) (ts : list ty) : list nat :=
  match ts with [] => [] | t :: ts => off :: sums (off + size_of t) ts end.

Definition sizes (ts : list ty) : nat := list_sum (map size_of ts).

Lemma fill_tight ts : forall ms pre rest,
  Forall2 (fun (m : mem) t => length m = size_of t) ms ts -> length rest = sizes ts ->
  fill (sums (length pre) ts) ms (pre ++ rest) = pre ++ List.concat ms.
Proof.
  induction ts as [|t ts IH]; intros ms pre rest F L; inversion F as [|m t' ms' ts' M F']; subst.
  - destruct rest; [easy|]. easy.
  - cbn [sums fill List.concat]. unfold sizes in L. cbn [map list_sum fold_right] in L.
    fold (list_sum (map size_of ts)) in L. fold (sizes ts) in L.
    unfold splice. rewrite firstn_exact.
    rewrite skipn_app, skipn_all2 by lia.
    replace (length pre + length m - length pre) with (length m) by lia. cbn [app].
    rewrite !app_assoc. rewrite <- M.
    replace (length pre + length m) with (length (pre ++ m)) by (rewrite app_length; easy).
    apply IH; [easy|]. rewrite skipn_length. lia.
Qed.

Lemma tiles_sums h ms : forall off size, tiles off (described_from h off ms) size ->
  offsets false off (map (fun m => ty_of h (snd m)) ms)
    = sums off (map (fun m => ty_of h (snd m)) ms)
  /\ size = off + sizes (map (fun m => ty_of h (snd m)) ms).
Proof.
  induction ms as [|[n m] ms IH]; intros off size T; cbn in T.
  - subst. cbn. split; [easy|lia].
  - destruct T as [E T]. cbn [map snd offsets sums]. rewrite E in *.
    destruct (IH _ _ T) as [O S]. rewrite O. split; [easy|].
    unfold sizes, list_sum in *. cbn [map fold_right]. lia.
Qed.

Lemma slice_mid {A} (pre m rest : list A) :
  slice (pre ++ m ++ rest) (length pre) (length pre + length m) = m.
Proof.
  unfold slice. replace (length pre + length m - length pre) with (length m) by lia.
  rewrite skipn_app, skipn_all, Nat.sub_diag. cbn [skipn app]. apply firstn_exact.
Qed.

(** The pieces of a gapless record are its members. *)
Lemma concat_slices t : forall (ls : list (list N)) pre size,
  tiles (length pre) t size -> Forall2 (fun e l => length l = len e) t ls ->
  Forall2 (fun e l => slice (pre ++ List.concat ls) (start e) (start e + len e) = l) t ls.
Proof.
  induction t as [|e t IH]; intros ls pre size T F; inversion F as [|e' l t' ls' L F']; subst;
    constructor.
  - destruct T as [-> _]. cbn [List.concat]. rewrite <- L. apply slice_mid.
  - destruct T as [_ T]. cbn [List.concat]. rewrite app_assoc. apply IH with size; [|easy].
    rewrite app_length. now rewrite L.
Qed.

Definition plain (m : mty) : Prop :=
  match m with Le n a => size_of (integer_ty (wrapper_ty n n) a) = n | Bytes _ => True | _ => False end.

Lemma le_size h n a : size_of (ty_of h (Le n a)) = size_of (integer_ty (wrapper_ty n n) a).
Proof. easy. Qed.

Definition content_bytes (m : mty) (c : content) : list N :=
  match m, c with
  | Le n _, Num z => le n (Z.to_N z)
  | _, Raw l => l
  | _, _ => []
  end.

Lemma pow_256 n : (256 ^ Z.of_nat n = 2 ^ (8 * Z.of_nat n))%Z.
Proof. change 256%Z with (2 ^ 8)%Z. now rewrite <- Z.pow_mul_r by lia. Qed.

Lemma member_object_bytes h m c e : plain m -> is_number m = numeric e ->
  len e = size_of (ty_of h m) -> fits e c ->
  member_object h m c = Some (map Some (content_bytes m c))
  /\ length (content_bytes m c) = len e /\ encodes e c (content_bytes m c)
  /\ bytes (content_bytes m c).
Proof.
  intros P N L F. destruct c as [z|l]; destruct F as [NE F]; rewrite NE in N.
  - destruct m as [n a| | | |]; try easy. cbn [plain] in P. rewrite le_size, P in L.
    cbn [member_object content_bytes]. rewrite le_size, P.
    assert (PT : pattern {| signed := false; width := n |} z = Z.to_N z).
    { unfold pattern. cbn [width]. rewrite Z.mod_small; [easy|].
      rewrite L, pow_256 in F. easy. }
    rewrite make_image by easy. cbn [uint int width]. rewrite Nat.sub_diag. cbn [repeat].
    rewrite app_nil_r. unfold image. cbn [declared uint int width]. rewrite PT.
    split; [easy|]. split; [now rewrite le_length|]. split; [|apply le_bytes].
    cbn [encodes]. rewrite L. apply (host_stored LittleFirst).
  - now destruct m as [n a| |k| |].
Qed.

Lemma member_objects_bytes h ms : forall cs off,
  Forall plain (map snd ms) -> Forall2 fits (described_from h off ms) cs ->
  exists ls, member_objects h ms cs = Some (map (map Some) ls)
    /\ Forall2 (fun l t => length l = size_of t) ls (map (fun m => ty_of h (snd m)) ms)
    /\ Forall2 (fun e l => length l = len e) (described_from h off ms) ls
    /\ Forall2 (fun e (p : content * list N) => encodes e (fst p) (snd p))
         (described_from h off ms) (combine cs ls)
    /\ Forall bytes ls.
Proof.
  induction ms as [|[n m] ms IH]; intros cs off P F; cbn [described_from] in F;
    inversion F as [|e c t cs' FC F']; subst.
  - exists []. repeat split; constructor.
  - cbn [map snd] in P. inversion P as [|x y P1 P2]; subst.
    destruct (IH _ _ P2 F') as (ls & E & A & B & C & D).
    set (e := {| name := n; start := _; len := _; numeric := _ |}) in *.
    destruct (member_object_bytes h m c e P1 eq_refl eq_refl FC) as (E1 & A1 & C1 & D1).
    exists (content_bytes m c :: ls). cbn [member_objects]. rewrite E1, E.
    split; [easy|]. split; [constructor; easy|]. split; [constructor; easy|].
    split; constructor; easy.
Qed.

Lemma init_length m l : init m = Some l -> length m = length l.
Proof. intros E. apply init_inv in E. subst. apply map_length. Qed.
