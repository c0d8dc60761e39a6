(** Conclusions about the words of signatures. *)
From Verif Require Import Base DbusElement DbusSigModel DbusSpec DbusSigTheory DbusSigProofs DbusSigResults DbusFlagBits DbusWordModel DbusWordSpec DbusWordParse DbusWordProofs DbusWordSim DbusWordMono.
From Verif Require Import DbusCursorProofs.
Local Open Scope N_scope.
Local Open Scope res_scope.

Lemma repeat_app {A} (x : A) n m : repeat x (n + m) = repeat x n ++ repeat x m.
Proof. induction n as [|n IH]; [reflexivity|]. cbn. now rewrite IH. Qed.
Lemma empty_words big k m : buffer_words big k (repeat None m) = repeat None (coeffn k * m).
Proof.
  induction m as [|m IH]; [now rewrite Nat.mul_0_r|]. cbn [repeat buffer_words flat_map]. fold (buffer_words big k (repeat None m)). rewrite IH.
  fold (coeffn k). rewrite <- repeat_app. f_equal. lia.
Qed.
Lemma firstn_repeat {A} (x : A) n m : (n <= m)%nat -> firstn n (repeat x m) = repeat x n.
Proof. revert m. induction n as [|n IH]; intros [|m] H; try reflexivity; [lia|]. cbn. now rewrite IH by lia. Qed.
Lemma skipn_repeat {A} (x : A) n m : skipn n (repeat x m) = repeat x (m - n).
Proof. revert m. induction n as [|n IH]; intros [|m]; try reflexivity. cbn. apply IH. Qed.

Theorem parse_words big fuel m text :
  word_parse big fuel (repeat None m) text =
  res_map (fun r => match r with
                    | inl e => inl e
                    | inr s => inr (buffer_words big (s_kind s) (s_nodes s) ++
                                    repeat None (N.to_nat (N.of_nat m mod size_coeff (s_kind s))))
                    end) (sig_parse fuel (N.of_nat m) text).
Proof.
  unfold word_parse, sig_parse. cbv zeta. set (k := if N.of_nat (length text) <=? length_max node8 then node8 else node64).
  assert (Hk : k = node8 \/ k = node64) by (unfold k; destruct (_ <=? _); auto). clearbody k.
  rewrite repeat_length. pose proof (coeff_pos k Hk) as Cp.
  pose proof (N.div_mod (N.of_nat m) (size_coeff k) ltac:(lia)) as DM. pose proof (N.mod_lt (N.of_nat m) (size_coeff k) ltac:(lia)) as ML.
  remember (N.of_nat m / size_coeff k) as q eqn:Eq. remember (N.of_nat m mod size_coeff k) as p eqn:Ep.
  assert (Em : (m - N.to_nat p = coeffn k * N.to_nat q)%nat) by (unfold coeffn; lia).
  rewrite Em. rewrite firstn_repeat by (unfold coeffn; lia). rewrite skipn_repeat. replace (m - coeffn k * N.to_nat q)%nat with (N.to_nat p) by (unfold coeffn; lia).
  pose proof (sim_node_parse big k Hk (buffer_words big k (repeat None (N.to_nat q))) (repeat None (N.to_nat q)) text) as S.
  rewrite empty_words in S. specialize (S ltac:(split; [symmetry; apply empty_words|]; intros n X; apply repeat_spec in X; discriminate)).
  destruct (w_node_parse big k (repeat None (coeffn k * N.to_nat q)) text) as [[e|ws]| |], (node_parse k (repeat None (N.to_nat q)) text) as [[e'|b]| |];
    cbn [rel R5] in S; try contradiction; cbn [bind res_map]; try reflexivity.
  - now rewrite S.
  - destruct S as [-> _]. rewrite repeat_length, N2Nat.id. destruct (pad_loop fuel 0 p); cbn [bind res_map s_kind s_nodes]; now rewrite <- ?Ep.
Qed.
Lemma sig_words_some big k ns : buffer_words big k (map Some ns) = map Some (sig_words big (mkSig k (map Some ns))).
Proof.
  induction ns as [|n ns IH]; [reflexivity|]. cbn [map buffer_words sig_words flat_map s_kind s_nodes]. rewrite map_app. f_equal.
  exact IH.
Qed.
Theorem new_words big fuel text :
  word_new big fuel text = res_map (fun r => match r with inl e => inl e | inr s => inr (sig_words big s) end) (sig_new fuel text).
Proof.
  unfold word_new. pose proof (fun s => reach_new fuel text s) as RN. unfold sig_new in *. destruct (size_for_length (N.of_nat (length text))) as [z| |] eqn:Z; cbn [bind] in *; try reflexivity.
  rewrite parse_words, N2Nat.id. destruct (sig_parse fuel z text) as [[e|s]| |] eqn:P; cbn [bind res_map]; try reflexivity.
  destruct (reachable_good s (RN s eq_refl)) as [ns G].
  assert (M : z mod size_coeff (s_kind s) = 0).
  { unfold sig_parse in P. cbv zeta in P. match type of P with bind ?X _ = _ => destruct X as [[e|b]| |]; cbn [bind] in P; try discriminate end.
    match type of P with bind ?X _ = _ => destruct X; cbn [bind] in P; try discriminate end. injection P as <-. cbn [s_kind].
    unfold size_for_length in Z. destruct (N.of_nat (length text) <=? length_max node8).
    - injection Z as <-. apply N.mod_mul. discriminate.
    - destruct (_ <=? _); [|discriminate]. destruct (_ <? _); [|discriminate]. injection Z as <-. apply N.mod_mul. discriminate. }
  rewrite M. cbn [N.to_nat repeat]. rewrite app_nil_r. rewrite (g_nodes s ns G), sig_words_some.
  replace (mkSig (s_kind s) (map Some ns)) with s by (rewrite <- (g_nodes s ns G); now destruct s).
  now rewrite init_some.
Qed.
Theorem reads_words big s : reachable s ->
  word_len big (sig_words big s) = sig_len s /\
  forall i, word_node_at big (sig_words big s) i = res_map (option_map (to_ref (s_kind s))) (node_at s i) /\
            word_at big (sig_words big s) i = res_map (option_map (sig_words big)) (sig_at s i).
Proof.
  intros R. destruct (reachable_good s R) as [ns G]. split; [now apply (g_word_len big s ns)|]. intros i.
  rewrite (g_word_node_at big s ns G), (g_node_at big s ns G). split; [reflexivity|]. now apply (g_word_at big s ns).
Qed.

Lemma new_inv big fuel text ws : word_new big fuel text = Ok (inr ws) -> exists s, sig_new fuel text = Ok (inr s) /\ ws = sig_words big s.
Proof. rewrite new_words. destruct (sig_new fuel text) as [[e|s]| |]; cbn [bind res_map]; try discriminate. intros E. injection E as <-. now exists s. Qed.
Lemma sig_size t s ns : is_sig t s -> good s ns -> size ns = size (print t).
Proof.
  intros I G. destruct I as [k r Hk Hr ->]. pose proof (codes_ns k t r Hr) as C. pose proof (f_equal (@length _) C) as C'. rewrite map_length in C'.
  destruct G as (_ & A & _). cbn [s_nodes] in A. apply map_some_inj in A. unfold size. rewrite <- A. now f_equal.
Qed.
Theorem words_text big fuel text ws : word_new big fuel text = Ok (inr ws) ->
  size ws = size text * (if size text <=? 31 then 1 else 6) /\
  forall i, word_code_at big ws i = Ok (nth_error text (N.to_nat i)).
Proof.
  intros E. destruct (new_inv _ _ _ _ E) as (s & S & ->). destruct (sig_new_sig _ _ _ S) as (t & -> & I & K).
  pose proof (reach_new _ _ _ S) as R. split; [|now apply code_text].
  destruct (reachable_good s R) as [ns G]. unfold size at 1. rewrite (g_count big s ns G), K. unfold kind_for.
  assert (L : size ns = size (print t)) by now apply (sig_size t s).
  rewrite L. destruct (_ <=? 31); reflexivity.
Qed.
Theorem words_sub big fuel t ws fs u : word_new big fuel (print t) = Ok (inr ws) -> occurs t fs u ->
  exists sub a b, word_at big ws (index fs) = Ok (Some sub) /\ ws = a ++ sub ++ b /\
    size sub * size (print t) = size ws * size (print u) /\ size a * size (print t) = size ws * index fs /\
    forall i, word_code_at big sub i = Ok (nth_error (print u) (N.to_nat i)).
Proof.
  intros E O. destruct (words_text _ _ _ _ E) as [Z _]. destruct (new_inv _ _ _ _ E) as (s & S & ->).
  destruct (sig_new_sig _ _ _ S) as (t' & P & I & K). apply print_inj in P. subst t'.
  pose proof (reach_new _ _ _ S) as R.
  assert (A : exists s', sig_at s (index fs) = Ok (Some s') /\ is_sig u s' /\ s_kind s' = s_kind s).
  { destruct I as [k r Hk Hr Es]. rewrite Es. cbn [s_kind]. apply (at_start k Hk t r Hr fs u O). }
  destruct A as (s' & A & I' & K'). pose proof (reach_at _ _ _ R A) as R'.
  destruct (proj2 (reads_words big s R) (index fs)) as [_ W]. rewrite A in W. cbn [res_map bind option_map] in W.
  pose proof W as W0. destruct (reachable_good s R) as [ns G]. destruct (reachable_good s' R') as [ns' G'].
  pose proof (sig_size t s ns I G) as L. pose proof (sig_size u s' ns' I' G') as L'.
  pose proof (g_count big s ns G) as C. pose proof (g_count big s' ns' G') as C'. rewrite K' in C'. rewrite L in C. rewrite L' in C'.
  fold (size (sig_words big s)) in C. fold (size (sig_words big s')) in C'.
  unfold word_at in W. rewrite (g_word_node_at big s ns G) in W. cbn [bind] in W. destruct (nth_error ns (N.to_nat (index fs))) as [n|]; cbn [option_map] in W; [|discriminate].
  destruct (negb _); [discriminate|].
  assert (Co : ref_coeff (to_ref (s_kind s) n) = size_coeff (s_kind s)).
  { destruct G as (Hk & _). unfold to_ref. destruct Hk as [-> | ->]; reflexivity. }
  rewrite Co in W. unfold strict_mul at 1 in W. destruct (_ <? _); cbn [bind] in W; [|discriminate].
  unfold split_at at 1 in W. destruct (N.leb_spec (index fs * size_coeff (s_kind s)) (N.of_nat (length (sig_words big s)))) as [Le|]; cbn [bind snd] in W; [|discriminate].
  unfold strict_mul in W. match type of W with context [if ?X then _ else _] => destruct X; cbn [bind] in W; [|discriminate] end.
  unfold split_at in W. match type of W with context [if ?X then _ else _] => destruct X; cbn [bind fst] in W; [|discriminate] end.
  set (st := N.to_nat (index fs * size_coeff (s_kind s))) in W. set (ln := N.to_nat (ref_length (to_ref (s_kind s) n) * size_coeff (s_kind s))) in W.
  exists (sig_words big s'), (firstn st (sig_words big s)), (skipn ln (skipn st (sig_words big s))).
  split; [exact W0|]. split.
  { injection W as <-. now rewrite firstn_skipn, firstn_skipn. }
  split; [rewrite C, C'; lia|]. split; [|now apply code_text].
  unfold size at 1. rewrite firstn_length_le by (unfold st; lia). unfold st. rewrite N2Nat.id, C. lia.
Qed.
Theorem parse_any_memory big fuel data text need r :
  size_for_length (size text) = Ok need -> size data = need -> word_new big fuel text = Ok r ->
  word_parse big fuel data text = Ok (match r with inl e => inl e | inr ws => inr (map Some ws) end).
Proof.
  intros N D W. pose proof (m_parse big fuel _ _ text (agrees_blank data)) as M.
  unfold word_new in W. fold (size text) in W. rewrite N in W. cbn [bind] in W. replace (N.to_nat need) with (length data) in W by (unfold size in D; lia).
  destruct (word_parse big fuel (repeat None (length data)) text) as [[e|ws]| |]; cbn [bind] in W; try discriminate.
  - injection W as <-. destruct M as ([e'|] & -> & M); [now rewrite M|contradiction].
  - destruct (init ws) as [l| |] eqn:I; cbn [bind] in W; try discriminate. injection W as <-.
    destruct M as ([e'|ws'] & -> & M); [contradiction|]. cbn [same_end] in M.
    assert (X : ws = map Some l).
    { clear -I. revert l I. induction ws as [|[w|] ws IH]; intros l I; cbn [init] in I; [injection I as <-; reflexivity| |discriminate].
      destruct (init ws) as [l'| |]; cbn [bind] in I; try discriminate. injection I as <-. cbn. f_equal. now apply IH. }
    subst ws. apply agrees_full in M. now rewrite M.
Qed.
Theorem new_total big fuel text : size text < 2 ^ 61 -> exists r, word_new big fuel text = Ok r.
Proof. intros H. rewrite new_words. destruct (parses_always fuel text H) as [r ->]. now eexists. Qed.
Theorem new_accepts big fuel text : size text < 2 ^ 61 -> (exists ws, word_new big fuel text = Ok (inr ws)) <-> (exists t, text = print t).
Proof.
  intros H. rewrite <- (accepts_exactly fuel text H). split.
  - intros [ws E]. destruct (new_inv _ _ _ _ E) as (s & S & _). now exists s.
  - intros [s S]. exists (sig_words big s). rewrite new_words, S. reflexivity.
Qed.
