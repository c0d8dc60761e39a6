(** Histories of calls on the SHA-256 engine and on HMAC. *)
From Verif Require Import Base HashApi HashSpec.
From Verif Require Sha256Spec.
From Verif Require Import Sha256Model Sha256Proofs HmacModel.
Local Open Scope N_scope.
Local Open Scope res_scope.

(** ** What a correct engine is *)
Record engine_ok {E} (I : HmacModel.Engine E) (H : list N -> list N)
    (fits len_ok : N -> bool) (abs : E -> list N -> Prop) : Prop := {
  ok_is_reset : forall e m, abs e m -> e_is_reset I e = match m with [] => true | _ => false end;
  ok_reset : forall e m, abs e m -> abs (e_reset I e) [];
  ok_push : forall e m d, abs e m ->
    if fits (N.of_nat (length (m ++ d)))
    then exists e', e_push I e d = Ok e' /\ abs e' (m ++ d)
    else e_push I e d = Panic;
  ok_push_zero : forall e n, e_push_zero I e n = e_push I e (repeat 0 n);
  ok_finalize : forall e m, abs e m ->
    if len_ok (N.of_nat (length m))
    then exists e', e_finalize I e = Ok (H m, e') /\ abs e' []
    else e_finalize I e = Panic;
}.

Definition sha_abs (e : Sha256Model.engine) (m : list N) : Prop :=
  absorbed e m /\ total e = N.of_nat (length m) /\ N.of_nat (length m) < U64.

Lemma nat_mod64 n : (N.of_nat n mod 64 =? 63) = Nat.eqb (n mod 64) 63.
Proof.
  destruct (Nat.eqb_spec (n mod 64) 63) as [E|E].
  - apply N.eqb_eq. pose proof (Nat.div_mod n 64). lia.
  - apply N.eqb_neq. pose proof (Nat.div_mod n 64 ltac:(lia)).
    pose proof (Nat.mod_upper_bound n 64 ltac:(lia)).
    pose proof (N.div_mod (N.of_nat n) 64 ltac:(lia)).
    pose proof (N.mod_upper_bound (N.of_nat n) 64 ltac:(lia)). lia.
Qed.

Lemma sha_ok : engine_ok sha256_engine Sha256Spec.sha256 fits64 actual_len sha_abs.
Proof.
  split; cbn [e_is_reset e_reset e_push e_push_zero e_finalize sha256_engine].
  - intros e m [A [T L]]. unfold is_reset. rewrite T. destruct m; cbn [length]; [reflexivity|].
    apply N.eqb_neq. lia.
  - intros e m [A [T L]]. split; [exact (reset_ok _ _ A)|]. split; [reflexivity|].
    unfold U64; cbn; lia.
  - intros e m d [A [T L]]. pose proof (push_ok e m d A ltac:(rewrite T; exact L)) as P.
    rewrite app_length. unfold fits64. change (2 ^ 64) with U64.
    replace (total e + N.of_nat (length d)) with (N.of_nat (length m + length d)) in P by lia.
    destruct (N.ltb_spec (N.of_nat (length m + length d)) U64) as [Hl|Hl]; [|exact P].
    destruct P as [e' [E1 [A' T']]]. exists e'. split; [exact E1|].
    split; [exact A'|]. rewrite app_length. split; [lia|exact Hl].
  - exact push_zero_eq.
  - intros e m [A [T L]]. pose proof (finalize_ok e m A T) as P.
    unfold actual_len. rewrite nat_mod64.
    destruct (_ && _); [|exact P]. destruct P as [e' [E1 [A' T']]].
    exists e'. split; [exact E1|]. split; [exact A'|]. split; [exact T'|]. unfold U64; cbn; lia.
Qed.

Lemma sha_abs_default : sha_abs engine_default [].
Proof. split; [apply absorbed_default|]. split; [reflexivity|unfold U64; cbn; lia]. Qed.

(** ** Histories of the SHA-256 engine *)
Lemma step_spec e m o : sha_abs e m ->
  match
    match o with
    | Push _ | PushZero _ =>
      let msg' := m ++ op_data o in
      if fits64 (N.of_nat (length msg')) then Some (None, msg') else None
    | Finalize => if actual_len (N.of_nat (length m)) then Some (Some (Sha256Spec.sha256 m), []) else None
    | Reset => Some (None, [])
    end
  with
  | Some (out, m') => exists e', step e o = Ok (out, e') /\ sha_abs e' m'
  | None => step e o = Panic
  end.
Proof.
  intros A. pose proof (ok_push _ _ _ _ _ sha_ok e m) as HP.
  pose proof (ok_finalize _ _ _ _ _ sha_ok e m A) as HF.
  pose proof (ok_reset _ _ _ _ _ sha_ok e m A) as HR.
  cbn [e_is_reset e_reset e_push e_push_zero e_finalize sha256_engine] in HP, HF, HR.
  destruct o as [d|n| |]; cbn [op_data step].
  - specialize (HP d A). cbv zeta. destruct (fits64 _).
    + destruct HP as [e' [-> A']]. cbn [bind]. eauto.
    + rewrite HP; reflexivity.
  - specialize (HP (repeat 0 n) A). cbv zeta. rewrite push_zero_eq. destruct (fits64 _).
    + destruct HP as [e' [-> A']]. cbn [bind]. eauto.
    + rewrite HP; reflexivity.
  - destruct (actual_len _).
    + destruct HF as [e' [-> A']]. cbn [bind]. eauto.
    + rewrite HF; reflexivity.
  - eauto.
Qed.

Lemma run_spec ops : forall e m, sha_abs e m ->
  match history Sha256Spec.sha256 fits64 actual_len m ops with
  | Some outs => exists e', run e ops = Ok (outs, e')
  | None => run e ops = Panic
  end.
Proof.
  induction ops as [|o ops IH]; intros e m A; cbn [history run].
  - eauto.
  - pose proof (step_spec e m o A) as HS.
    destruct (match o with Push _ | PushZero _ => _ | Finalize => _ | Reset => _ end) as [[out m']|] eqn:Ho.
    + destruct HS as [e' [-> A']]. cbn [bind]. specialize (IH e' m' A').
      destruct (history _ _ _ m' ops) as [outs|].
      * destruct IH as [e'' ->]. cbn [bind]. eexists. do 4 f_equal.
        exact (ok_is_reset _ _ _ _ _ sha_ok e' m' A').
      * rewrite IH. reflexivity.
    + rewrite HS. reflexivity.
Qed.

Definition outputs {A B} (r : res (A * B)) : option A :=
  match r with Ok (a, _) => Some a | _ => None end.
(** A run never gets stuck: it returns or panics. *)
Definition terminates {A} (r : res A) : Prop := match r with NoFuel => False | _ => True end.

Lemma run_exact ops :
  terminates (run engine_default ops) /\
  outputs (run engine_default ops) = history Sha256Spec.sha256 fits64 actual_len [] ops.
Proof.
  pose proof (run_spec ops engine_default [] sha_abs_default) as H.
  destruct (history _ _ _ [] ops) as [outs|].
  - destruct H as [e' ->]. split; [exact I|reflexivity].
  - rewrite H. split; [exact I|reflexivity].
Qed.

Lemma history_data H fits len_ok ops : forall m,
  forallb is_data ops = true ->
  (forall n, n <= N.of_nat (length (m ++ data_of ops)) -> fits n = true) ->
  history H fits len_ok m (ops ++ [Finalize]) =
  if len_ok (N.of_nat (length (m ++ data_of ops)))
  then option_map (fun l => l ++ [(Some (H (m ++ data_of ops)), true)])
         (history H fits len_ok m ops)
  else None.
Proof.
  induction ops as [|o ops IH]; intros m Hd Hf.
  - cbn [app data_of flat_map history]. rewrite app_nil_r.
    destruct (len_ok _); reflexivity.
  - cbn [forallb] in Hd. apply andb_true_iff in Hd as [Ho Hd].
    assert (E : m ++ data_of (o :: ops) = (m ++ op_data o) ++ data_of ops)
      by (unfold data_of; cbn [flat_map]; rewrite app_assoc; reflexivity).
    rewrite E in *. cbn [app history].
    assert (Hfit : fits (N.of_nat (length (m ++ op_data o))) = true)
      by (apply Hf; rewrite (app_length (m ++ op_data o)); lia).
    destruct o as [d|n| |]; try discriminate Ho; rewrite Hfit;
      rewrite IH by assumption; destruct (len_ok _); try reflexivity;
      destruct (history H fits len_ok _ ops); reflexivity.
Qed.

Lemma fits64_small n k : n < 2 ^ 61 -> k <= n -> fits64 k = true.
Proof. unfold fits64; intros; apply N.ltb_lt. change (2^64) with (8 * 2^61). lia. Qed.

(** Outputs of a run that only pushed data: nothing but the digest. *)
Lemma history_data_total H fits len_ok ops : forall m,
  forallb is_data ops = true ->
  (forall n, n <= N.of_nat (length (m ++ data_of ops)) -> fits n = true) ->
  exists outs, history H fits len_ok m ops = Some outs /\ map fst outs = map (fun _ => None) ops.
Proof.
  induction ops as [|o ops IH]; intros m Hd Hf.
  - exists []; split; reflexivity.
  - cbn [forallb] in Hd. apply andb_true_iff in Hd as [Ho Hd].
    assert (E : m ++ data_of (o :: ops) = (m ++ op_data o) ++ data_of ops)
      by (unfold data_of; cbn [flat_map]; rewrite app_assoc; reflexivity).
    rewrite E in *. cbn [history].
    assert (Hfit : fits (N.of_nat (length (m ++ op_data o))) = true)
      by (apply Hf; rewrite (app_length (m ++ op_data o)); lia).
    destruct (IH (m ++ op_data o) Hd Hf) as [outs [E1 E2]].
    destruct o as [d|n| |]; try discriminate Ho; rewrite Hfit, E1;
      eexists; (split; [reflexivity|]); cbn [map fst]; rewrite E2; reflexivity.
Qed.

Lemma streaming ops :
  forallb is_data ops = true ->
  N.of_nat (length (data_of ops)) < 2 ^ 61 ->
  N.of_nat (length (data_of ops)) mod 64 <> 63 ->
  exists outs e, run engine_default (ops ++ [Finalize]) = Ok (outs, e) /\
    map fst outs = map (fun _ => None) ops ++ [Some (Sha256Spec.sha256 (data_of ops))].
Proof.
  intros Hd Hl H63.
  pose proof (run_spec (ops ++ [Finalize]) engine_default [] sha_abs_default) as R.
  assert (Hf : forall n, n <= N.of_nat (length ([] ++ data_of ops)) -> fits64 n = true)
    by (cbn [app]; intros n Hn; exact (fits64_small _ _ Hl Hn)).
  rewrite history_data in R by assumption. cbn [app] in R.
  destruct (history_data_total Sha256Spec.sha256 fits64 actual_len ops [] Hd Hf) as [outs [E1 E2]].
  rewrite E1 in R.
  assert (A : actual_len (N.of_nat (length (data_of ops))) = true).
  { unfold actual_len. apply andb_true_iff; split; [apply N.ltb_lt; exact Hl|].
    apply negb_true_iff, N.eqb_neq; exact H63. }
  rewrite A in R. cbn [option_map] in R. destruct R as [e' R].
  do 2 eexists; split; [exact R|]. rewrite map_app, E2. reflexivity.
Qed.

Lemma panics_63 ops :
  forallb is_data ops = true ->
  N.of_nat (length (data_of ops)) mod 64 = 63 ->
  run engine_default (ops ++ [Finalize]) = Panic.
Proof.
  intros Hd H63.
  assert (G : forall ops m, forallb is_data ops = true ->
     N.of_nat (length (m ++ data_of ops)) mod 64 = 63 ->
     history Sha256Spec.sha256 fits64 actual_len m (ops ++ [Finalize]) = None).
  { clear. induction ops as [|o ops IH]; intros m Hd H63.
    - cbn [app data_of flat_map history]. cbn [data_of flat_map] in H63.
      rewrite app_nil_r in H63. unfold actual_len. rewrite H63, N.eqb_refl, andb_false_r. reflexivity.
    - cbn [forallb] in Hd. apply andb_true_iff in Hd as [Ho Hd].
      assert (E : m ++ data_of (o :: ops) = (m ++ op_data o) ++ data_of ops)
        by (unfold data_of; cbn [flat_map]; rewrite app_assoc; reflexivity).
      rewrite E in H63. cbn [app history].
      destruct o as [d|n| |]; try discriminate Ho;
        (destruct (fits64 _); [rewrite IH by assumption|]); reflexivity. }
  pose proof (run_spec (ops ++ [Finalize]) engine_default [] sha_abs_default) as R.
  rewrite (G ops [] Hd H63) in R. exact R.
Qed.

(** [panics iff too long, or 63 modulo 64]. *)
Lemma panic_iff ops :
  forallb is_data ops = true ->
  (run engine_default (ops ++ [Finalize]) = Panic <->
   (2 ^ 61 <= N.of_nat (length (data_of ops)) \/
    N.of_nat (length (data_of ops)) mod 64 = 63)).
Proof.
  intros Hd. destruct (N.lt_ge_cases (N.of_nat (length (data_of ops))) (2 ^ 61)) as [Hl|Hl].
  - destruct (N.eq_dec (N.of_nat (length (data_of ops)) mod 64) 63) as [H63|H63].
    + split; [auto|]. intros _. apply panics_63; assumption.
    + destruct (streaming ops Hd Hl H63) as [outs [e [E _]]]. rewrite E.
      split; [discriminate|]. intros [?|?]; [lia|contradiction].
  - split; [auto|]. intros _.
    assert (G : forall ops m, forallb is_data ops = true ->
       2 ^ 61 <= N.of_nat (length (m ++ data_of ops)) ->
       history Sha256Spec.sha256 fits64 actual_len m (ops ++ [Finalize]) = None).
    { clear. induction ops as [|o ops IH]; intros m Hd H.
      - cbn [app data_of flat_map history]. cbn [data_of flat_map] in H.
        rewrite app_nil_r in H. unfold actual_len.
        rewrite (proj2 (N.ltb_ge _ _) H). reflexivity.
      - cbn [forallb] in Hd. apply andb_true_iff in Hd as [Ho Hd].
        assert (E : m ++ data_of (o :: ops) = (m ++ op_data o) ++ data_of ops)
          by (unfold data_of; cbn [flat_map]; rewrite app_assoc; reflexivity).
        rewrite E in H. cbn [app history].
        destruct o as [d|n| |]; try discriminate Ho;
          (destruct (fits64 _); [rewrite IH by assumption|]); reflexivity. }
    pose proof (run_spec (ops ++ [Finalize]) engine_default [] sha_abs_default) as R.
    rewrite (G ops [] Hd Hl) in R. exact R.
Qed.

(** Reuse: after [Finalize] or [Reset] every history is as for a new engine. *)
Lemma run_abs ops : forall e m outs e', sha_abs e m -> run e ops = Ok (outs, e') ->
  exists m', sha_abs e' m' /\ is_reset e' = match m' with [] => true | _ => false end.
Proof.
  induction ops as [|o ops IH]; intros e m outs e' A R; cbn [run] in R.
  - inversion R; subst. exists m. split; [assumption|].
    exact (ok_is_reset _ _ _ _ _ sha_ok _ _ A).
  - pose proof (step_spec e m o A) as HS.
    destruct (match o with Push _ | PushZero _ => _ | Finalize => _ | Reset => _ end) as [[out m']|].
    + destruct HS as [e1 [E1 A1]]. rewrite E1 in R. cbn [bind] in R.
      destruct (run e1 ops) as [[outs1 e2]| |] eqn:R1; cbn [bind] in R; try discriminate.
      inversion R; subst. eapply IH; eauto.
    + rewrite HS in R. discriminate.
Qed.

Lemma reuse pre o post e outs :
  (o = Finalize \/ o = Reset) ->
  run engine_default (pre ++ [o]) = Ok (outs, e) ->
  is_reset e = true /\ outputs (run e post) = outputs (run engine_default post) /\
  terminates (run e post).
Proof.
  intros Ho R.
  assert (G : forall pre e0 m, sha_abs e0 m -> forall outs e, run e0 (pre ++ [o]) = Ok (outs, e) -> sha_abs e []).
  { clear - Ho. induction pre as [|x pre IH]; intros e0 m A outs e R; cbn [app run] in R.
    - pose proof (step_spec e0 m o A) as HS.
      destruct Ho; subst o; cbn [op_data] in HS.
      + destruct (actual_len _); [|rewrite HS in R; discriminate].
        destruct HS as [e1 [E1 A1]]. rewrite E1 in R. cbn [bind] in R. inversion R; subst; assumption.
      + destruct HS as [e1 [E1 A1]]. rewrite E1 in R. cbn [bind] in R. inversion R; subst; assumption.
    - pose proof (step_spec e0 m x A) as HS.
      destruct (match x with Push _ | PushZero _ => _ | Finalize => _ | Reset => _ end) as [[out m']|].
      + destruct HS as [e1 [E1 A1]]. rewrite E1 in R. cbn [bind] in R.
        destruct (run e1 (pre ++ [o])) as [[outs1 e2]| |] eqn:R1; cbn [bind] in R; try discriminate.
        inversion R; subst. eapply IH; eauto.
      + rewrite HS in R. discriminate. }
  pose proof (G pre _ _ sha_abs_default _ _ R) as A.
  split; [exact (ok_is_reset _ _ _ _ _ sha_ok _ _ A)|].
  pose proof (run_spec post e [] A) as R1.
  pose proof (run_spec post engine_default [] sha_abs_default) as R2.
  destruct (history _ _ _ [] post) as [o'|].
  - destruct R1 as [e1 ->], R2 as [e2 ->]. split; reflexivity || exact I.
  - rewrite R1, R2. split; reflexivity || exact I.
Qed.

(** ** Default push_zero of the engine trait *)
Lemma firstn_zeros a b : (a <= b)%nat -> firstn a (repeat 0 b) = repeat 0 a.
Proof.
  revert b; induction a as [|a IH]; intros [|b] Hab; cbn; try reflexivity; [lia|].
  f_equal. apply IH. lia.
Qed.

Lemma default_push_zero_loop_ok {E} (I : HmacModel.Engine E) H fits len_ok abs :
  engine_ok I H fits len_ok abs ->
  (forall a b, a <= b -> fits b = true -> fits a = true) ->
  forall fuel n e m, (n <= fuel)%nat -> abs e m ->
  if fits (N.of_nat (length (m ++ repeat 0 n)))
  then exists e', default_push_zero_loop (e_push I) fuel e n = Ok e' /\ abs e' (m ++ repeat 0 n)
  else n <> 0%nat -> default_push_zero_loop (e_push I) fuel e n = Panic.
Proof.
  intros OK Hmono fuel. induction fuel as [|fuel IH]; intros n e m Hn A.
  - assert (n = 0%nat) as -> by lia. cbn [repeat]. rewrite app_nil_r.
    destruct (fits _); [cbn [default_push_zero_loop]; eauto|]. intros HH; destruct (HH eq_refl).
  - destruct n as [|n'] eqn:En.
    { cbn [repeat]. rewrite app_nil_r. destruct (fits _); [cbn [default_push_zero_loop]; eauto|]. intros HH; destruct (HH eq_refl). }
    rewrite <- En in *.
    assert (E1 : default_push_zero_loop (e_push I) (S fuel) e n =
      bind (e_push I e (firstn (Nat.min n 128) (repeat 0 128)))
        (fun e' => default_push_zero_loop (e_push I) fuel e' (n - Nat.min n 128)))
      by (subst n; reflexivity).
    rewrite E1. rewrite firstn_zeros by lia. set (k := Nat.min n 128).
    assert (Hk : (0 < k <= n)%nat) by lia.
    assert (En' : m ++ repeat 0 n = (m ++ repeat 0 k) ++ repeat 0 (n - k)).
    { rewrite <- app_assoc, <- repeat_app. do 2 f_equal. lia. }
    pose proof (ok_push _ _ _ _ _ OK e m (repeat 0 k) A) as P.
    rewrite En'.
    destruct (fits (N.of_nat (length (m ++ repeat 0 k)))) eqn:F1.
    + destruct P as [e1 [-> A1]]. cbn [bind].
      pose proof (IH (n - k)%nat e1 _ ltac:(lia) A1) as P2.
      destruct (fits (N.of_nat (length ((m ++ repeat 0 k) ++ repeat 0 (n - k))))) eqn:F2.
      * exact P2.
      * intros _. apply P2. intros Hz. rewrite Hz in F2. cbn [repeat] in F2.
        rewrite app_nil_r in F2. congruence.
    + rewrite P. cbn [bind].
      destruct (fits (N.of_nat (length ((m ++ repeat 0 k) ++ repeat 0 (n - k))))) eqn:F2; [|reflexivity].
      exfalso. rewrite Hmono with (b := N.of_nat (length ((m ++ repeat 0 k) ++ repeat 0 (n - k)))) in F1;
        [discriminate | rewrite (app_length (m ++ repeat 0 k)); lia | exact F2].
Qed.

(** ** HMAC over any correct engine *)
Lemma fill_pads_ok l : forall i p q a b, length p = i -> length q = i -> (length l <= a)%nat -> (length l <= b)%nat ->
  fill_pads i l (p ++ repeat 0x36 a, q ++ repeat 0x5c b) =
  Ok (p ++ xor_byte 0x36 l ++ repeat 0x36 (a - length l), q ++ xor_byte 0x5c l ++ repeat 0x5c (b - length l)).
Proof.
  induction l as [|v l IH]; intros i p q a b Hp Hq Ha Hb; cbn [fill_pads].
  - cbn [xor_byte map app length]. rewrite !Nat.sub_0_r. reflexivity.
  - cbn [length] in Ha, Hb.
    destruct a as [|a]; [lia|]. destruct b as [|b]; [lia|].
    rewrite (proj2 (Nat.ltb_lt _ _)) by (rewrite app_length, repeat_length; lia).
    rewrite (proj2 (Nat.ltb_lt _ _)) by (rewrite app_length, repeat_length; lia).
    assert (U : forall (p : list N) c x n, length p = i -> upd (p ++ repeat c (S n)) i x = (p ++ [x]) ++ repeat c n).
    { clear. intros p c x n Hp. unfold upd. subst i.
      rewrite firstn_app, Nat.sub_diag, firstn_all, firstn_O, app_nil_r.
      rewrite skipn_app. rewrite skipn_all2 by lia.
      replace (S (length p) - length p)%nat with 1%nat by lia. cbn [skipn repeat app].
      rewrite <- app_assoc. reflexivity. }
    rewrite (U p), (U q) by assumption.
    rewrite IH by (rewrite ?app_length; cbn [length]; lia).
    cbn [xor_byte map length Nat.sub]. rewrite <- !app_assoc. cbn [app].
    rewrite (N.lxor_comm v 0x36), (N.lxor_comm v 0x5c). reflexivity.
Qed.

Lemma xor_zero c n : xor_byte c (repeat 0 n) = repeat c n.
Proof.
  unfold xor_byte. induction n as [|n IH]; cbn [repeat map]; [reflexivity|].
  rewrite IH, N.lxor_0_r. reflexivity.
Qed.

Section HmacProof.
Context {E : Type} (I : HmacModel.Engine E) (H : list N -> list N).
Context (fits len_ok : N -> bool) (abs : E -> list N -> Prop).
Context (OK : engine_ok I H fits len_ok abs).
Context (B : nat) (HB : (0 < B)%nat).
Context (HL : forall m, (length (H m) <= B)%nat).
Context (Hmono : forall a b, a <= b -> fits b = true -> fits a = true).
(** The outer hash input can be processed. *)
Context (Hout : forall m, fits (N.of_nat (B + length (H m))) = true /\
                          len_ok (N.of_nat (B + length (H m))) = true).

(** The HMAC instance has absorbed [m]. *)
Definition hm_abs (key : list N) (h : HmacModel.hmac E) (m : list N) : Prop :=
  ipad h = xor_byte 0x36 (hmac_key H B key) /\
  opad h = xor_byte 0x5c (hmac_key H B key) /\
  abs (engine h) (match m with [] => [] | _ => ipad h ++ m end).

Lemma key_length key : length (hmac_key H B key) = B.
Proof.
  unfold hmac_key. rewrite app_length, repeat_length.
  destruct (Nat.ltb_spec B (length key)); [pose proof (HL key)|]; lia.
Qed.

Definition key_ok (key : list N) : bool :=
  if Nat.ltb B (length key)
  then fits (N.of_nat (length key)) && len_ok (N.of_nat (length key)) else true.

Lemma with_engine_ok key e : abs e [] ->
  if key_ok key
  then exists h, with_engine I B key e = Ok h /\ hm_abs key h []
  else with_engine I B key e = Panic.
Proof.
  intros A. unfold with_engine, key_ok.
  rewrite (ok_is_reset _ _ _ _ _ OK e [] A).
  assert (G : forall ukey e1, abs e1 [] -> (length ukey <= B)%nat ->
     hmac_key H B key = ukey ++ repeat 0 (B - length ukey) ->
     exists h, (do '(ip, op) <- fill_pads 0 ukey (repeat 0x36 B, repeat 0x5c B); Ok (Hmac e1 ip op)) = Ok h /\ hm_abs key h []).
  { intros ukey e1 A1 Hlen Ek.
    pose proof (fill_pads_ok ukey 0 [] [] B B eq_refl eq_refl Hlen Hlen) as F. cbn [app] in F.
    rewrite F. cbn [bind]. eexists; split; [reflexivity|].
    split; [|split]; cbn [ipad opad engine].
    - rewrite Ek. unfold xor_byte at 2. rewrite map_app. fold (xor_byte 0x36 (repeat 0 (B - length ukey))).
      rewrite xor_zero. reflexivity.
    - rewrite Ek. unfold xor_byte at 2. rewrite map_app. fold (xor_byte 0x5c (repeat 0 (B - length ukey))).
      rewrite xor_zero. reflexivity.
    - exact A1. }
  destruct (Nat.ltb_spec B (length key)) as [Hk|Hk].
  - pose proof (ok_push _ _ _ _ _ OK e [] key A) as P. cbn [app] in P.
    destruct (fits (N.of_nat (length key))); cbn [andb]; [|rewrite P; reflexivity].
    destruct P as [e1 [-> A1]]. cbn [bind].
    pose proof (ok_finalize _ _ _ _ _ OK e1 key A1) as P.
    destruct (len_ok (N.of_nat (length key))); [|rewrite P; reflexivity].
    destruct P as [e2 [-> A2]]. cbn [bind].
    apply G; [assumption | apply HL |]. unfold hmac_key. rewrite (proj2 (Nat.ltb_lt _ _) Hk). reflexivity.
  - cbn [bind]. apply G; [assumption | assumption |]. unfold hmac_key.
    rewrite (proj2 (Nat.ltb_ge _ _) Hk). reflexivity.
Qed.

Lemma fits_B : fits (N.of_nat B) = true.
Proof. destruct (Hout []) as [F _]. eapply Hmono; [|exact F]. lia. Qed.

Lemma lazy_ok key h m : hm_abs key h m ->
  exists h', lazy_ipad I h = Ok h' /\ ipad h' = ipad h /\ opad h' = opad h /\
    abs (engine h') (ipad h ++ m).
Proof.
  intros [Hi [Ho A]]. unfold lazy_ipad.
  assert (Lp : length (ipad h) = B) by (rewrite Hi; unfold xor_byte; rewrite map_length; apply key_length).
  destruct m as [|x m].
  - rewrite (ok_is_reset _ _ _ _ _ OK _ _ A).
    pose proof (ok_push _ _ _ _ _ OK _ _ (ipad h) A) as P. cbn [app] in P. rewrite Lp, fits_B in P.
    destruct P as [e1 [-> A1]]. cbn [bind]. eexists; split; [reflexivity|].
    cbn [ipad opad engine]. rewrite app_nil_r. auto.
  - rewrite (ok_is_reset _ _ _ _ _ OK _ _ A).
    destruct (ipad h) as [|y p] eqn:Ep; [cbn in Lp; lia|]. cbn [app].
    exists h. rewrite Ep. repeat split; auto.
Qed.

(** A message fits if it fits after the inner pad (the empty one always). *)
Definition hm_fits (n : N) : bool := (n =? 0) || fits (N.of_nat B + n).
Definition hm_len_ok (n : N) : bool := len_ok (N.of_nat B + n).

Lemma hm_push key h m d : hm_abs key h m -> hm_fits (N.of_nat (length m)) = true ->
  if hm_fits (N.of_nat (length (m ++ d)))
  then exists h', hmac_push I h d = Ok h' /\ hm_abs key h' (m ++ d)
  else hmac_push I h d = Panic.
Proof.
  intros A Hm. destruct d as [|x d].
  - rewrite app_nil_r, Hm. exists h. split; [reflexivity|exact A].
  - cbn [hmac_push]. destruct (lazy_ok key h m A) as [h1 [-> [Hi1 [Ho1 A1]]]]. cbn [bind].
    destruct A as [Hi [Ho A]].
    assert (Lp : length (ipad h) = B) by (rewrite Hi; unfold xor_byte; rewrite map_length; apply key_length).
    pose proof (ok_push _ _ _ _ _ OK _ _ (x :: d) A1) as P.
    unfold hm_fits. destruct (N.eqb_spec (N.of_nat (length (m ++ x :: d))) 0) as [Hz|Hz].
    { rewrite app_length in Hz; cbn [length] in Hz; lia. }
    cbn [orb].
    replace (N.of_nat B + N.of_nat (length (m ++ x :: d))) with (N.of_nat (length ((ipad h ++ m) ++ x :: d)))
      by (rewrite !app_length, Lp; lia).
    destruct (fits _); [|rewrite P; reflexivity].
    destruct P as [e2 [-> A2]]. cbn [bind]. eexists; split; [reflexivity|].
    split; [|split]; cbn [ipad opad engine].
    + congruence.
    + congruence.
    + rewrite Hi1. rewrite <- app_assoc in A2. destruct m; exact A2.
Qed.

Lemma hm_push_zero key h m n : hm_abs key h m -> hmac_push_zero I h n = hmac_push I h (repeat 0 n).
Proof.
  intros A. destruct n as [|n]; [reflexivity|].
  unfold hmac_push_zero, hmac_push. cbn [repeat].
  destruct (lazy_ipad I h) as [h1| |]; cbn [bind]; [|reflexivity..].
  rewrite (ok_push_zero _ _ _ _ _ OK). reflexivity.
Qed.

Lemma hm_finalize key h m : hm_abs key h m ->
  if hm_len_ok (N.of_nat (length m))
  then exists h', hmac_finalize I h = Ok (rfc2104 H B key m, h') /\ hm_abs key h' []
  else hmac_finalize I h = Panic.
Proof.
  intros A. unfold hmac_finalize. destruct (lazy_ok key h m A) as [h1 [-> [Hi1 [Ho1 A1]]]]. cbn [bind].
  destruct A as [Hi [Ho A]].
  assert (Lp : length (ipad h) = B) by (rewrite Hi; unfold xor_byte; rewrite map_length; apply key_length).
  assert (Lo : length (opad h) = B) by (rewrite Ho; unfold xor_byte; rewrite map_length; apply key_length).
  pose proof (ok_finalize _ _ _ _ _ OK _ _ A1) as P.
  unfold hm_len_ok.
  replace (N.of_nat B + N.of_nat (length m)) with (N.of_nat (length (ipad h ++ m)))
    by (rewrite app_length, Lp; lia).
  destruct (len_ok _); [|rewrite P; reflexivity].
  destruct P as [e1 [-> A1']]. cbn [bind]. rewrite Ho1.
  pose proof (ok_push _ _ _ _ _ OK _ _ (opad h) A1') as P. cbn [app] in P. rewrite Lo, fits_B in P.
  destruct P as [e2 [-> A2]]. cbn [bind].
  pose proof (ok_push _ _ _ _ _ OK _ _ (H (ipad h ++ m)) A2) as P.
  destruct (Hout (ipad h ++ m)) as [F1 F2].
  rewrite app_length, Lo, F1 in P. destruct P as [e3 [-> A3]]. cbn [bind].
  pose proof (ok_finalize _ _ _ _ _ OK _ _ A3) as P. rewrite app_length, Lo, F2 in P.
  destruct P as [e4 [-> A4]]. cbn [bind]. eexists; split.
  - unfold rfc2104. rewrite <- Hi, <- Ho. reflexivity.
  - split; [|split]; cbn [ipad opad engine]; congruence || exact A4.
Qed.

Lemma hm_reset key h m : hm_abs key h m -> hm_abs key (hmac_reset I h) [].
Proof.
  intros [Hi [Ho A]]. split; [|split]; cbn [hmac_reset ipad opad engine]; auto.
  exact (ok_reset _ _ _ _ _ OK _ _ A).
Qed.

Lemma hm_run key ops : forall h m, hm_abs key h m -> hm_fits (N.of_nat (length m)) = true ->
  match history (rfc2104 H B key) hm_fits hm_len_ok m ops with
  | Some outs => exists h', hmac_run I h ops = Ok (map fst outs, h')
  | None => hmac_run I h ops = Panic
  end.
Proof.
  induction ops as [|o ops IH]; intros h m A Hm; cbn [history hmac_run].
  - cbn [map]. eauto.
  - destruct o as [d|n| |]; cbn [hmac_step op_data].
    + pose proof (hm_push key h m d A Hm) as P.
      destruct (hm_fits (N.of_nat (length (m ++ d)))) eqn:F; [|rewrite P; reflexivity].
      destruct P as [h1 [-> A1]]. cbn [bind]. specialize (IH h1 _ A1 F).
      destruct (history _ _ _ (m ++ d) ops) as [outs|].
      * destruct IH as [h2 ->]. cbn [bind map fst]. eauto.
      * rewrite IH. reflexivity.
    + rewrite (hm_push_zero key h m n A).
      pose proof (hm_push key h m (repeat 0 n) A Hm) as P.
      destruct (hm_fits (N.of_nat (length (m ++ repeat 0 n)))) eqn:F; [|rewrite P; reflexivity].
      destruct P as [h1 [-> A1]]. cbn [bind]. specialize (IH h1 _ A1 F).
      destruct (history _ _ _ (m ++ repeat 0 n) ops) as [outs|].
      * destruct IH as [h2 ->]. cbn [bind map fst]. eauto.
      * rewrite IH. reflexivity.
    + pose proof (hm_finalize key h m A) as P.
      destruct (hm_len_ok (N.of_nat (length m))); [|rewrite P; reflexivity].
      destruct P as [h1 [-> A1]]. cbn [bind]. specialize (IH h1 _ A1 eq_refl).
      destruct (history _ _ _ [] ops) as [outs|].
      * destruct IH as [h2 ->]. cbn [bind map fst]. eauto.
      * rewrite IH. reflexivity.
    + cbn [bind]. specialize (IH _ _ (hm_reset key h m A) eq_refl).
      destruct (history _ _ _ [] ops) as [outs|].
      * destruct IH as [h2 ->]. cbn [bind map fst]. eauto.
      * rewrite IH. reflexivity.
Qed.
End HmacProof.

(** ** HMAC-SHA-256 *)
Lemma compress_length K h b : length h = 8%nat -> length (Sha256Spec.compress_with K h b) = 8%nat.
Proof.
  intros Hh. unfold Sha256Spec.compress_with. rewrite map_length, combine_length.
  assert (R : forall l v, length v = 8%nat -> length (fold_left Sha256Spec.round l v) = 8%nat).
  { induction l as [|x l IH]; intros v Hv; cbn [fold_left]; [assumption|]. apply IH.
    do 8 (destruct v as [|? v]; [discriminate|]). destruct v; [|discriminate]. reflexivity. }
  rewrite R by assumption. rewrite Hh. reflexivity.
Qed.
Lemma H0_length : length Sha256Spec.H0 = 8%nat.
Proof. rewrite <- H_spec. reflexivity. Qed.
Lemma flat_length l : length l = 8%nat -> length (flat_map Sha256Spec.be32 l) = 32%nat.
Proof. intros Hl. do 8 (destruct l as [|? l]; [discriminate|]). destruct l; [|discriminate]. reflexivity. Qed.
Lemma fold_length K bs : forall h, length h = 8%nat ->
  length (fold_left (Sha256Spec.compress_with K) bs h) = 8%nat.
Proof.
  induction bs as [|b bs IH]; intros h Hh; cbn [fold_left]; [assumption|].
  apply IH, compress_length, Hh.
Qed.
Lemma sha256_length m : length (Sha256Spec.sha256 m) = 32%nat.
Proof. exact (flat_length _ (fold_length _ _ _ H0_length)). Qed.
#[global] Opaque Sha256Spec.sha256.

Lemma fits64_mono a b : a <= b -> fits64 b = true -> fits64 a = true.
Proof. unfold fits64. intros; apply N.ltb_lt. apply N.ltb_lt in H0. lia. Qed.
Lemma hmac_out m : fits64 (N.of_nat (64 + length (Sha256Spec.sha256 m))) = true /\
   actual_len (N.of_nat (64 + length (Sha256Spec.sha256 m))) = true.
Proof. rewrite sha256_length. split; reflexivity. Qed.

(** The whole behaviour of an HMAC-SHA-256 instance. *)
Lemma history_ext H f1 f2 l1 l2 ops : (forall n, f1 n = f2 n) -> (forall n, l1 n = l2 n) ->
  forall m, history H f1 l1 m ops = history H f2 l2 m ops.
Proof.
  intros Hf Hl. induction ops as [|o ops IH]; intros m; cbn [history]; [reflexivity|].
  destruct o; cbv zeta; rewrite ?Hf, ?Hl; try (destruct (f2 _)); try (destruct (l2 _));
    rewrite ?IH; reflexivity.
Qed.

Lemma hmac_exact key ops :
  let r := do h <- hmac_sha256_new key; hmac_run sha256_engine h ops in
  terminates r /\ outputs r = hmac_history Sha256Spec.sha256 actual_len key ops.
Proof.
  intros r. unfold r, hmac_sha256_new, hmac_history. clear r.
  assert (HL : forall m, (length (Sha256Spec.sha256 m) <= 64)%nat) by (intros; rewrite sha256_length; lia).
  pose proof (with_engine_ok sha256_engine Sha256Spec.sha256 fits64 actual_len sha_abs sha_ok
     64 HL key engine_default sha_abs_default) as W.
  assert (Ek : key_ok fits64 actual_len 64 key =
    (N.of_nat (length key) <=? 64) || (fits64 (N.of_nat (length key)) && actual_len (N.of_nat (length key)))).
  { unfold key_ok. destruct (Nat.ltb_spec 64 (length key)), (N.leb_spec (N.of_nat (length key)) 64);
      try reflexivity; exfalso; lia. }
  rewrite Ek in W. clear Ek.
  destruct (_ || _); [|rewrite W; split; reflexivity || exact I].
  destruct W as [h [-> A]]. cbn [bind].
  pose proof (hm_run sha256_engine Sha256Spec.sha256 fits64 actual_len sha_abs sha_ok
     64 ltac:(lia) HL fits64_mono hmac_out key ops h [] A eq_refl) as R.
  rewrite (history_ext _ _ (fun n => (n =? 0) || fits64 (64 + n)) _ (fun n => actual_len (64 + n))) in R
    by reflexivity.
  destruct (history _ _ _ [] ops) as [outs|].
  - destruct R as [h' ->]. split; [exact I|reflexivity].
  - rewrite R. split; [exact I|reflexivity].
Qed.

(** MAC of one message. *)
Lemma actual_len_64 n : 64 + n < 2 ^ 61 -> n mod 64 <> 63 -> actual_len (64 + n) = true.
Proof.
  intros H1 H2. unfold actual_len. apply andb_true_iff; split; [apply N.ltb_lt; exact H1|].
  apply negb_true_iff, N.eqb_neq. replace (64 + n) with (n + 1 * 64) by lia.
  rewrite N.mod_add by lia. exact H2.
Qed.

Lemma hmac_streaming key ops :
  forallb is_data ops = true ->
  (64 < N.of_nat (length key) -> N.of_nat (length key) < 2 ^ 61 /\ N.of_nat (length key) mod 64 <> 63) ->
  64 + N.of_nat (length (data_of ops)) < 2 ^ 61 ->
  N.of_nat (length (data_of ops)) mod 64 <> 63 ->
  exists h, (do h0 <- hmac_sha256_new key; hmac_run sha256_engine h0 (ops ++ [Finalize])) =
    Ok (map (fun _ => None) ops ++ [Some (rfc2104 Sha256Spec.sha256 64 key (data_of ops))], h).
Proof.
  intros Hd Hk Hl H63.
  destruct (hmac_exact key (ops ++ [Finalize])) as [_ R]. revert R. cbv zeta.
  unfold hmac_history.
  assert (Ek : (N.of_nat (length key) <=? 64) || (fits64 (N.of_nat (length key)) && actual_len (N.of_nat (length key))) = true).
  { destruct (N.leb_spec (N.of_nat (length key)) 64) as [?|Hgt]; [reflexivity|].
    destruct Hk as [K1 K2]; [lia|]. unfold fits64, actual_len.
    rewrite (proj2 (N.ltb_lt _ _) K1), (proj2 (N.eqb_neq _ _) K2).
    rewrite (proj2 (N.ltb_lt (N.of_nat (length key)) (2 ^ 64))); [reflexivity|].
    change (2 ^ 64) with (8 * 2 ^ 61). lia. }
  rewrite Ek.
  set (F := fun n : N => (n =? 0) || fits64 (64 + n)).
  set (L := fun n : N => actual_len (64 + n)).
  assert (Hf : forall n, n <= N.of_nat (length ([] ++ data_of ops)) -> F n = true).
  { cbn [app]. intros n Hn. unfold F. apply orb_true_iff. right.
    unfold fits64. apply N.ltb_lt. change (2 ^ 64) with (8 * 2 ^ 61). lia. }
  rewrite history_data by assumption. cbn [app].
  destruct (history_data_total (rfc2104 Sha256Spec.sha256 64 key) F L ops [] Hd Hf) as [outs [E1 E2]].
  rewrite E1. unfold L. rewrite actual_len_64 by assumption. cbn [option_map].
  rewrite map_app, E2. cbn [map fst].
  destruct (bind _ _) as [[o h]| |]; cbn [outputs]; intros R; inversion R; subst. eauto.
Qed.

(** ** Reuse of HMAC instances *)
Lemma hmac_reuse key pre o post h0 outs h :
  (o = Finalize \/ o = Reset) ->
  hmac_sha256_new key = Ok h0 ->
  hmac_run sha256_engine h0 (pre ++ [o]) = Ok (outs, h) ->
  outputs (hmac_run sha256_engine h post) = outputs (hmac_run sha256_engine h0 post).
Proof.
  intros Ho Hn R.
  assert (HL : forall m, (length (Sha256Spec.sha256 m) <= 64)%nat) by (intros; rewrite sha256_length; lia).
  pose proof (with_engine_ok sha256_engine Sha256Spec.sha256 fits64 actual_len sha_abs sha_ok
     64 HL key engine_default sha_abs_default) as W.
  fold (hmac_sha256_new key) in W. rewrite Hn in W.
  destruct (key_ok _ _ _ _); [|discriminate]. destruct W as [h0' [E0 A0]]. inversion E0; subst h0'. clear E0.
  set (AB := hm_abs Sha256Spec.sha256 sha_abs 64 key) in *.
  set (FT := hm_fits fits64 64).
  assert (G : forall pre h1 m outs h, AB h1 m -> FT (N.of_nat (length m)) = true ->
     hmac_run sha256_engine h1 (pre ++ [o]) = Ok (outs, h) -> AB h []).
  { clear - Ho HL. induction pre as [|x pre IH]; intros h1 m outs h A F R; cbn [app hmac_run] in R.
    - destruct Ho; subst o; cbn [hmac_step] in R.
      + pose proof (hm_finalize sha256_engine Sha256Spec.sha256 fits64 actual_len sha_abs sha_ok
          64 ltac:(lia) HL fits64_mono hmac_out key h1 m A) as P.
        destruct (hm_len_ok _ _ _); [|rewrite P in R; discriminate].
        destruct P as [h2 [E2 A2]]. rewrite E2 in R. cbn [bind] in R. inversion R; subst. exact A2.
      + cbn [bind] in R. inversion R; subst.
        exact (hm_reset sha256_engine Sha256Spec.sha256 fits64 actual_len sha_abs sha_ok 64 key h1 m A).
    - assert (PD : forall d, hmac_push sha256_engine h1 d = Panic \/
         exists h2, hmac_push sha256_engine h1 d = Ok h2 /\ AB h2 (m ++ d) /\ FT (N.of_nat (length (m ++ d))) = true).
      { intros d.
        pose proof (hm_push sha256_engine Sha256Spec.sha256 fits64 actual_len sha_abs sha_ok
          64 ltac:(lia) HL fits64_mono hmac_out key h1 m d A F) as P.
        unfold FT. destruct (hm_fits _ _ _) eqn:F2; [right|left; exact P].
        destruct P as [h2 [E2 A2]]. eauto. }
      destruct x as [d|n| |]; cbn [hmac_step] in R.
      + destruct (PD d) as [E2|[h2 [E2 [A2 F2]]]]; rewrite E2 in R; cbn [bind] in R; [discriminate|].
        destruct (hmac_run sha256_engine h2 (pre ++ [o])) as [[o2 h3]| |] eqn:R2; cbn [bind] in R; try discriminate.
        inversion R; subst. eapply IH; eauto.
      + rewrite (hm_push_zero sha256_engine Sha256Spec.sha256 fits64 actual_len sha_abs sha_ok 64 key h1 m n A) in R.
        destruct (PD (repeat 0 n)) as [E2|[h2 [E2 [A2 F2]]]]; rewrite E2 in R; cbn [bind] in R; [discriminate|].
        destruct (hmac_run sha256_engine h2 (pre ++ [o])) as [[o2 h3]| |] eqn:R2; cbn [bind] in R; try discriminate.
        inversion R; subst. eapply IH; eauto.
      + pose proof (hm_finalize sha256_engine Sha256Spec.sha256 fits64 actual_len sha_abs sha_ok
          64 ltac:(lia) HL fits64_mono hmac_out key h1 m A) as P.
        destruct (hm_len_ok _ _ _); [|rewrite P in R; discriminate].
        destruct P as [h2 [E2 A2]]. rewrite E2 in R. cbn [bind] in R.
        destruct (hmac_run sha256_engine h2 (pre ++ [o])) as [[o2 h3]| |] eqn:R2; cbn [bind] in R; try discriminate.
        inversion R; subst. eapply IH; eauto.
      + cbn [bind] in R.
        destruct (hmac_run sha256_engine (hmac_reset sha256_engine h1) (pre ++ [o])) as [[o2 h3]| |] eqn:R2; cbn [bind] in R; try discriminate.
        inversion R; subst. apply (IH _ [] _ _) with (3 := R2); [|reflexivity].
        exact (hm_reset sha256_engine Sha256Spec.sha256 fits64 actual_len sha_abs sha_ok 64 key h1 m A). }
  pose proof (G pre h0 [] outs h A0 eq_refl R) as A.
  pose proof (hm_run sha256_engine Sha256Spec.sha256 fits64 actual_len sha_abs sha_ok
     64 ltac:(lia) HL fits64_mono hmac_out key post h [] A eq_refl) as R1.
  pose proof (hm_run sha256_engine Sha256Spec.sha256 fits64 actual_len sha_abs sha_ok
     64 ltac:(lia) HL fits64_mono hmac_out key post h0 [] A0 eq_refl) as R2.
  destruct (history _ _ _ [] post) as [o'|].
  - destruct R1 as [h1 ->], R2 as [h2 ->]. reflexivity.
  - rewrite R1, R2. reflexivity.
Qed.

(** ** Hexadecimal form *)
Lemma digit_ok d : d < 16 ->
  exists c, digit_to_char d = Ok c /\ hex_digit c = Some d.
Proof.
  intros H.
  assert (C : In d [0;1;2;3;4;5;6;7;8;9;10;11;12;13;14;15]).
  { cbn [In]. lia. }
  cbn [In] in C. repeat (destruct C as [<-|C]; [eexists; split; reflexivity|]). destruct C.
Qed.

Lemma to_hex_ok h : bytes h ->
  exists s, to_hex h = Ok s /\ length s = (2 * length h)%nat /\
    Forall (fun c => hex_digit c <> None) s /\ from_hex s = Some h.
Proof.
  induction h as [|b h IH]; intros Hb.
  - exists []. repeat split. constructor.
  - inversion Hb as [|? ? Hb1 Hb2]; subst. destruct (IH Hb2) as [s [E1 [E2 [E3 E4]]]].
    unfold is_byte in Hb1.
    assert (Ea : N.land (N.shiftr b 4) 0x0f = b / 16).
    { change 0x0f with (N.ones 4). rewrite N.land_ones, N.shiftr_div_pow2.
      change (2 ^ 4) with 16. apply N.mod_small. apply N.div_lt_upper_bound; lia. }
    assert (Eb : N.land (N.shiftr b 0) 0x0f = b mod 16).
    { change 0x0f with (N.ones 4). rewrite N.land_ones, N.shiftr_0_r. reflexivity. }
    cbn [to_hex]. rewrite Ea, Eb.
    destruct (digit_ok (b / 16)) as [c1 [-> D1]]; [apply N.div_lt_upper_bound; lia|].
    destruct (digit_ok (b mod 16)) as [c2 [-> D2]]; [apply N.mod_upper_bound; lia|].
    cbn [bind]. rewrite E1. cbn [bind]. eexists; split; [reflexivity|].
    cbn [length]. split; [lia|]. split.
    + repeat constructor; congruence || assumption.
    + cbn [from_hex]. rewrite D1, D2, E4. do 2 f_equal.
      symmetry. exact (N.div_mod b 16 ltac:(lia)).
Qed.

Lemma to_hex_inj a b s : bytes a -> bytes b -> to_hex a = Ok s -> to_hex b = Ok s -> a = b.
Proof.
  intros Ha Hb E1 E2.
  destruct (to_hex_ok a Ha) as [s1 [F1 [_ [_ G1]]]], (to_hex_ok b Hb) as [s2 [F2 [_ [_ G2]]]].
  congruence.
Qed.

(** ** One-shot hashing *)
Lemma hash_once_ok m : N.of_nat (length m) < 2 ^ 61 -> N.of_nat (length m) mod 64 <> 63 ->
  hash_once m = Ok (Sha256Spec.sha256 m).
Proof.
  intros Hl H63. unfold hash_once.
  pose proof (ok_push _ _ _ _ _ sha_ok _ _ m sha_abs_default) as P.
  cbn [e_push sha256_engine app] in P.
  rewrite (fits64_small _ _ Hl (N.le_refl _)) in P. destruct P as [e [-> A]]. cbn [bind].
  pose proof (ok_finalize _ _ _ _ _ sha_ok _ _ A) as P. cbn [e_finalize sha256_engine] in P.
  assert (actual_len (N.of_nat (length m)) = true) as Ha.
  { unfold actual_len. apply andb_true_iff; split; [apply N.ltb_lt; exact Hl|].
    apply negb_true_iff, N.eqb_neq; exact H63. }
  rewrite Ha in P. destruct P as [e' [-> _]]. reflexivity.
Qed.

(** ** Statements of the property file *)
Lemma default_push_zero_ok : forall (E : Type) (I : HmacModel.Engine E) H fits len_ok abs,
  engine_ok I H fits len_ok abs ->
  (forall a b, a <= b -> fits b = true -> fits a = true) ->
  forall n e m, n <> 0%nat -> abs e m ->
  if fits (N.of_nat (length (m ++ repeat 0 n)))
  then exists e', default_push_zero (e_push I) e n = Ok e' /\ abs e' (m ++ repeat 0 n)
  else default_push_zero (e_push I) e n = Panic.
Proof.
  intros E I H fits len_ok abs OK Hm n e m Hn A.
  pose proof (default_push_zero_loop_ok I H fits len_ok abs OK Hm n n e m (le_n _) A) as P.
  unfold default_push_zero. destruct (fits _); auto.
Qed.

Lemma hmac_generic_ok : forall (E : Type) (I : HmacModel.Engine E) (H : list N -> list N)
    (fits len_ok : N -> bool) (abs : E -> list N -> Prop),
  engine_ok I H fits len_ok abs ->
  forall B, (0 < B)%nat ->
  (forall m, (length (H m) <= B)%nat) ->
  (forall a b, a <= b -> fits b = true -> fits a = true) ->
  (forall m, fits (N.of_nat (B + length (H m))) = true /\ len_ok (N.of_nat (B + length (H m))) = true) ->
  forall key e ops, abs e [] ->
  ((B < length key)%nat -> fits (N.of_nat (length key)) = true /\ len_ok (N.of_nat (length key)) = true) ->
  let r := do h <- with_engine I B key e; hmac_run I h ops in
  terminates r /\
  outputs r = option_map (map fst)
    (history (rfc2104 H B key) (fun n => (n =? 0) || fits (N.of_nat B + n))
             (fun n => len_ok (N.of_nat B + n)) [] ops).
Proof.
  intros E I H fits len_ok abs OK B HB HL Hm Ho key e ops A Hk r. unfold r; clear r.
  pose proof (with_engine_ok I H fits len_ok abs OK B HL key e A) as W.
  assert (Ek : key_ok fits len_ok B key = true).
  { unfold key_ok. destruct (Nat.ltb_spec B (length key)); [|reflexivity].
    destruct (Hk ltac:(assumption)) as [-> ->]. reflexivity. }
  rewrite Ek in W. destruct W as [h [-> A']]. cbn [bind].
  pose proof (hm_run I H fits len_ok abs OK B HB HL Hm Ho key ops h [] A' eq_refl) as R.
  rewrite (history_ext _ _ (fun n => (n =? 0) || fits (N.of_nat B + n)) _ (fun n => len_ok (N.of_nat B + n))) in R
    by reflexivity.
  destruct (history _ _ _ [] ops) as [outs|].
  - destruct R as [h' ->]. split; [exact Logic.I|reflexivity].
  - rewrite R. split; [exact Logic.I|reflexivity].
Qed.
