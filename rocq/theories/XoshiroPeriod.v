(** The period of Xoshiro256++ is 2^256 - 1: for every prime factor p, the power
    x^((2^256-1)/p) minus one is invertible modulo the annihilating polynomial,
    so no non-zero state returns after (2^256-1)/p steps.  The constants are
    certificates; the kernel recomputes them. *)
From Verif Require Import Base RngModel RngSpec RngProofs XoshiroProofs XoshiroPoly PrimeCert.
Local Open Scope N_scope.

Lemma iter_onto f v : x_wf v -> exists w, x_wf w /\ N.iter f stepL w = v.
Proof.
  intros W. revert v W. induction f as [|f IH] using N.peano_ind; intros v W; [exists v; auto|].
  destruct (IH (unstep v) (wf_unstep v W)) as [w [Hw E]]. exists w. split; [exact Hw|].
  rewrite N.iter_succ, E. rewrite <- step_eq by apply wf_unstep, W. apply step_unstep, W.
Qed.
Lemma acts_quot u n p e f : fmul u n = p -> acts n f -> acts p (e + f) -> acts u e.
Proof.
  intros Hp An Ap v W. destruct (iter_onto f v W) as [w [Ww E]].
  pose proof (Ap w Ww) as H. rewrite <- Hp, ev_fmul, N.iter_add, E in H by exact Ww.
  rewrite <- H, <- E. rewrite ev_comm. rewrite An by exact Ww. reflexivity.
Qed.
Lemma no_period c e q : acts c e -> fmul (N.lxor c 1) q = 1 ->
  forall v, x_wf v -> v <> zero -> N.iter e stepL v <> v.
Proof.
  intros A Hq v W Hv E. apply Hv.
  assert (Z : ev (N.lxor c 1) v = zero).
  { rewrite ev_lxor, A, E by exact W. apply add_self. }
  pose proof (ev_fmul (N.lxor c 1) q v W) as M. rewrite Hq, Z, ev_0 in M. exact M.
Qed.

Definition cK0 := K0. Lemma aK0 : acts cK0 1. Proof. exact acts_K0. Qed.
Definition cK1 := K1. Lemma aK1 : acts cK1 65536. Proof. exact acts_K1. Qed.
Definition cK2 := K2. Lemma aK2 : acts cK2 4294967296. Proof. exact acts_K2. Qed.
Definition cK3 := K3. Lemma aK3 : acts cK3 281474976710656. Proof. exact acts_K3. Qed.
Definition cK4 := K4. Lemma aK4 : acts cK4 18446744073709551616. Proof. exact acts_K4. Qed.
Definition cK5 := K5. Lemma aK5 : acts cK5 1208925819614629174706176. Proof. exact acts_K5. Qed.
Definition cK6 := K6. Lemma aK6 : acts cK6 79228162514264337593543950336. Proof. exact acts_K6. Qed.
Definition cK7 := K7. Lemma aK7 : acts cK7 5192296858534827628530496329220096. Proof. exact acts_K7. Qed.
Definition cK8 := K8. Lemma aK8 : acts cK8 340282366920938463463374607431768211456. Proof. exact acts_K8. Qed.
Definition cK9 := K9. Lemma aK9 : acts cK9 22300745198530623141535718272648361505980416. Proof. exact acts_K9. Qed.
Definition cK10 := K10. Lemma aK10 : acts cK10 1461501637330902918203684832716283019655932542976. Proof. exact acts_K10. Qed.
Definition cK11 := K11. Lemma aK11 : acts cK11 95780971304118053647396689196894323976171195136475136. Proof. exact acts_K11. Qed.
Definition cK12 := K12. Lemma aK12 : acts cK12 6277101735386680763835789423207666416102355444464034512896. Proof. exact acts_K12. Qed.
Definition cK13 := K13. Lemma aK13 : acts cK13 411376139330301510538742295639337626245683966408394965837152256. Proof. exact acts_K13. Qed.
Definition cK14 := K14. Lemma aK14 : acts cK14 26959946667150639794667015087019630673637144422540572481103610249216. Proof. exact acts_K14. Qed.
Definition cK15 := K15. Lemma aK15 : acts cK15 1766847064778384329583297500742918515827483896875618958121606201292619776. Proof. exact acts_K15. Qed.
Definition cB : N := 0x64af5832851e53068eb1596206fe8aa365bb30e5c4a617734bed7cfdeeb096a1.
Lemma vB : (fmul (fmul (fmul (fmul (fmul (fmul (fmul (fmul (fmul (fmul (fmul (fmul (fmul (fmul (fmul cK0 cK1) cK2) cK3) cK4) cK5) cK6) cK7) cK8) cK9) cK10) cK11) cK12) cK13) cK14) cK15) = cB. Proof. vm_compute. reflexivity. Qed.
Lemma aB : acts cB 1766874025136433896750911497805568136923323180981774075523881651146915841. Proof. rewrite <- vB. exact (acts_mul _ _ _ _ (acts_mul _ _ _ _ (acts_mul _ _ _ _ (acts_mul _ _ _ _ (acts_mul _ _ _ _ (acts_mul _ _ _ _ (acts_mul _ _ _ _ (acts_mul _ _ _ _ (acts_mul _ _ _ _ (acts_mul _ _ _ _ (acts_mul _ _ _ _ (acts_mul _ _ _ _ (acts_mul _ _ _ _ (acts_mul _ _ _ _ (acts_mul _ _ _ _ aK0 aK1) aK2) aK3) aK4) aK5) aK6) aK7) aK8) aK9) aK10) aK11) aK12) aK13) aK14) aK15). Qed.
Definition cBC : N := 0x9b17f5767b72e1a3c673d4c3e369b20235e972559753b37fdedc95dc103781f.
Lemma vBC : (pow_pos (pow_pos cB 17) 257) = cBC. Proof. vm_compute. reflexivity. Qed.
Lemma aBC : acts cBC 7719472615821079694904732333912527190217998977709370935963838933860875309329. Proof. rewrite <- vBC. exact (acts_pow _ _ 257 (acts_pow _ _ 17 aB)). Qed.
Definition cBD : N := 0xf03d401fe80611e1b4255b5e1d0ee98b94020603bd912c55abced46c9c6669ab.
Lemma vBD : (pow_pos (pow_pos cB 3) 5) = cBD. Proof. vm_compute. reflexivity. Qed.
Lemma aBD : acts cBD 26503110377046508451263672467083522053849847714726611132858224767203737615. Proof. rewrite <- vBD. exact (acts_pow _ _ 5 (acts_pow _ _ 3 aB)). Qed.
Definition cu0 : N := 0x54d6a48aae687fb68b7f13ce6607e276afab085596734aa97762f281b25ed783.
Lemma vu0 : (pow_pos cBC 5) = cu0. Proof. vm_compute. reflexivity. Qed.
Lemma au0 : acts cu0 38597363079105398474523661669562635951089994888546854679819194669304376546645. Proof. rewrite <- vu0. exact (acts_pow _ _ 5 aBC). Qed.
Definition cu1 : N := 0x6ec9cd129895d052616a564f042be5956a2075f39c3d432635ad7e8b44cbcdcd.
Lemma vu1 : (pow_pos cBC 3) = cu1. Proof. vm_compute. reflexivity. Qed.
Lemma au1 : acts cu1 23158417847463239084714197001737581570653996933128112807891516801582625927987. Proof. rewrite <- vu1. exact (acts_pow _ _ 3 aBC). Qed.
Definition cu2 : N := 0x90269340057d7ee7eb21d977cf20f3dc38da22c5375471f2a0a830a7ef328ee9.
Lemma vu2 : (pow_pos cBD 257) = cu2. Proof. vm_compute. reflexivity. Qed.
Lemma au2 : acts cu2 6811299366900952671974763824040465167839410862684739061144563765171360567055. Proof. rewrite <- vu2. exact (acts_pow _ _ 257 aBD). Qed.
Definition cu3 : N := 0xfdb7756e6ac858fd6732aab4918d7df125c6c922eca444e8a2a0bb43afdb4f25.
Lemma vu3 : (pow_pos cBD 17) = cu3. Proof. vm_compute. reflexivity. Qed.
Lemma au3 : acts cu3 450552876409790643671482431940419874915447411150352389258589821042463539455. Proof. rewrite <- vu3. exact (acts_pow _ _ 17 aBD). Qed.
Definition cA0 : N := 0xec3e266f07dfd89c75fba9b2906ad81ec8173e445f1ed29af1cc61bb89058163.
Lemma vA0 : fmul cA0 cK0 = cK1. Proof. vm_compute. reflexivity. Qed.
Lemma aA0 : acts cA0 65535. Proof. exact (acts_quot _ _ _ 65535 _ vA0 aK0 aK1). Qed.
Definition cA2 : N := 0x2c875f7b4b00682a9bf3e8403935a3a0410891887b530d7457768f427091bd04.
Lemma vA2 : fmul cA2 cK2 = cK3. Proof. vm_compute. reflexivity. Qed.
Lemma aA2 : acts cA2 281470681743360. Proof. exact (acts_quot _ _ _ 281470681743360 _ vA2 aK2 aK3). Qed.
Definition cA4 : N := 0x75b1ee9955e5aa1d701f268bd13ae9dd4410ae79b345072ef435e63882ad57.
Lemma vA4 : fmul cA4 cK4 = cK5. Proof. vm_compute. reflexivity. Qed.
Lemma aA4 : acts cA4 1208907372870555465154560. Proof. exact (acts_quot _ _ _ 1208907372870555465154560 _ vA4 aK4 aK5). Qed.
Definition cA6 : N := 0x4c84208aded565f14f003bcd58b675d953c52c5418a6bdcc776857a88697b41a.
Lemma vA6 : fmul cA6 cK6 = cK7. Proof. vm_compute. reflexivity. Qed.
Lemma aA6 : acts cA6 5192217630372313364192902785269760. Proof. exact (acts_quot _ _ _ 5192217630372313364192902785269760 _ vA6 aK6 aK7). Qed.
Definition cA8 : N := 0x64c82568a3ed2b0a9e932efd5b29ebf4820ea9fef593d466afb3229d447c9006.
Lemma vA8 : fmul cA8 cK8 = cK9. Proof. vm_compute. reflexivity. Qed.
Lemma aA8 : acts cA8 22300404916163702203072254898040929737768960. Proof. exact (acts_quot _ _ _ 22300404916163702203072254898040929737768960 _ vA8 aK8 aK9). Qed.
Definition cA10 : N := 0x2b38a7307539f3268c6886e35806737b3c140d7e3d5766a3dd097d16c261ab7c.
Lemma vA10 : fmul cA10 cK10 = cK11. Proof. vm_compute. reflexivity. Qed.
Lemma aA10 : acts cA10 95779509802480722744478485512061607693151539203932160. Proof. exact (acts_quot _ _ _ 95779509802480722744478485512061607693151539203932160 _ vA10 aK10 aK11). Qed.
Definition cA12 : N := 0x70dfa7b459ba03517c79cc4e73e7f62b2aa27850c2a7fb3ec5a48406b41791f2.
Lemma vA12 : fmul cA12 cK12 = cK13. Proof. vm_compute. reflexivity. Qed.
Lemma aA12 : acts cA12 411369862228566123857978459849914418579267864052950501802639360. Proof. exact (acts_quot _ _ _ 411369862228566123857978459849914418579267864052950501802639360 _ vA12 aK12 aK13). Qed.
Definition cA14 : N := 0x3f1dc6e9ef4326f0e6fc2c406e399ee694ee2b179f68f49f78023fa98649ac8a.
Lemma vA14 : fmul cA14 cK14 = cK15. Proof. vm_compute. reflexivity. Qed.
Lemma aA14 : acts cA14 1766820104831717178943502833727831496196810259731196417549125097682370560. Proof. exact (acts_quot _ _ _ 1766820104831717178943502833727831496196810259731196417549125097682370560 _ vA14 aK14 aK15). Qed.
Definition cu4 : N := 0xb676779c1ec18ee71ca799db6f5623d0f6f65e508c7029e05dafe16943ddddf8.
Lemma vu4 : (fmul (fmul (fmul (fmul (fmul (fmul (fmul cA0 cA2) cA4) cA6) cA8) cA10) cA12) cA14) = cu4. Proof. vm_compute. reflexivity. Qed.
Lemma au4 : acts cu4 1766820105243087041267848467410591083712559083657179364930612997358944255. Proof. rewrite <- vu4. exact (acts_mul _ _ _ _ (acts_mul _ _ _ _ (acts_mul _ _ _ _ (acts_mul _ _ _ _ (acts_mul _ _ _ _ (acts_mul _ _ _ _ (acts_mul _ _ _ _ aA0 aA2) aA4) aA6) aA8) aA10) aA12) aA14). Qed.
Definition cD0 : N := 0x87034e848fe1b96712fda107eeff2ec6bf86830cb9fafe796281b139c670efb4.
Lemma vD0 : fmul cD0 cK0 = cK2. Proof. vm_compute. reflexivity. Qed.
Lemma aD0 : acts cD0 4294967295. Proof. exact (acts_quot _ _ _ 4294967295 _ vD0 aK0 aK2). Qed.
Definition cD4 : N := 0xd8c49c1820b798871fe4490f5727f29a1b56922c519788aa6f8ec0b3b1cc9019.
Lemma vD4 : fmul cD4 cK4 = cK6. Proof. vm_compute. reflexivity. Qed.
Lemma aD4 : acts cD4 79228162495817593519834398720. Proof. exact (acts_quot _ _ _ 79228162495817593519834398720 _ vD4 aK4 aK6). Qed.
Definition cD8 : N := 0x8db720aee3a101987f5db8d7a9ac1b2f91d376d5f4e8d2c8ae1e3d89aaf31f4d.
Lemma vD8 : fmul cD8 cK8 = cK10. Proof. vm_compute. reflexivity. Qed.
Lemma aD8 : acts cD8 1461501636990620551282746369252908412224164331520. Proof. exact (acts_quot _ _ _ 1461501636990620551282746369252908412224164331520 _ vD8 aK8 aK10). Qed.
Definition cD12 : N := 0x1463b46f40ec544a235f742eb01f20990ae33c3bd715cb8d7e6da744ce6a95a.
Lemma vD12 : fmul cD12 cK12 = cK14. Proof. vm_compute. reflexivity. Qed.
Lemma aD12 : acts cD12 26959946660873538059280334323183841250429478006438217036639575736320. Proof. exact (acts_quot _ _ _ 26959946660873538059280334323183841250429478006438217036639575736320 _ vD12 aK12 aK14). Qed.
Definition cu5 : N := 0x37fe0ecb0317f607575a66162420831f3d8c828694542642752abdbad5939599.
Lemma vu5 : (fmul (fmul (fmul cD0 cD4) cD8) cD12) = cu5. Proof. vm_compute. reflexivity. Qed.
Lemma au5 : acts cu5 26959946660873538060741835960174461801791452538186943042387869433855. Proof. rewrite <- vu5. exact (acts_mul _ _ _ _ (acts_mul _ _ _ _ (acts_mul _ _ _ _ aD0 aD4) aD8) aD12). Qed.
Definition cn6 : N := 0x158c6a3fcdb1b9ddb01b0802f640bd421310f9a324bffeb16b5f0de6ed5adbcf.
Lemma vn6 : (fmul cK4 cK12) = cn6. Proof. vm_compute. reflexivity. Qed.
Lemma an6 : acts cn6 6277101735386680763835789423207666416120802188537744064512. Proof. rewrite <- vn6. exact (acts_mul _ _ _ _ aK4 aK12). Qed.
Definition cd6 : N := 0x7357b88a5362cc3952b04c31c07f9355ab4c24cde1927258301d8da679fa1574.
Lemma vd6 : (fmul cK0 cK8) = cd6. Proof. vm_compute. reflexivity. Qed.
Lemma ad6 : acts cd6 340282366920938463463374607431768211457. Proof. rewrite <- vd6. exact (acts_mul _ _ _ _ aK0 aK8). Qed.
Definition cu6 : N := 0xea589bac321fb9a794f89aadd3a130f660161370fcd087627a75d0283f485e6e.
Lemma vu6 : fmul cu6 cd6 = cn6. Proof. vm_compute. reflexivity. Qed.
Lemma au6 : acts cu6 6277101735386680763495507056286727952657427581105975853055. Proof. exact (acts_quot _ _ _ 6277101735386680763495507056286727952657427581105975853055 _ vu6 ad6 an6). Qed.
Definition cu7 : N := 0x1cd5ee2294d8b30e54ac130c701fe4d56ad3093378649c960c0763699e7e855d.
Lemma vu7 : fmul cu7 cK0 = cK8. Proof. vm_compute. reflexivity. Qed.
Lemma au7 : acts cu7 340282366920938463463374607431768211455. Proof. exact (acts_quot _ _ _ 340282366920938463463374607431768211455 _ vu7 aK0 aK8). Qed.
Definition cu5a : N := 0x581da52f86332ea661bcbb2b555ce0f02e9815440881e2bf78b880b86010e91c.
Lemma vu5a : (pow_pos cu5 6700417) = cu5a. Proof. vm_compute. reflexivity. Qed.
Lemma au5a : acts cu5a 180642884925610289272341630278764286822574079041560942339247400948382417535. Proof. rewrite <- vu5a. exact (acts_pow _ _ 6700417 au5). Qed.
Definition cu5b : N := 0xc6450b829be1a76226abe4270fff410101352a4c92d48efe19b67cdd3c86a7ed.
Lemma vu5b : (pow_pos cu5 641) = cu5b. Proof. vm_compute. reflexivity. Qed.
Lemma au5b : acts cu5b 17281325809619937896935516850471830014948321076977830490170624307101055. Proof. rewrite <- vu5b. exact (acts_pow _ _ 641 au5). Qed.
Definition cu6a : N := 0xe5a556c3c9e400e198126a39102fcc20f4c3663facb3240e1d771075d04e50d8.
Lemma vu6a : (pow_pos cu6 67280421310721) = cu6a. Proof. vm_compute. reflexivity. Qed.
Lemma au6a : acts cu6a 422326049367073807881663979869529201403728192611490256438204459192102655. Proof. rewrite <- vu6a. exact (acts_pow _ _ 67280421310721 au6). Qed.
Definition cu6b : N := 0x2fbf5d361feea8bd9fc94ae35bf3f6a76338c186cf6f576a067bea15d2a4c5d4.
Lemma vu6b : (pow_pos cu6 274177) = cu6b. Proof. vm_compute. reflexivity. Qed.
Lemma au6b : acts cu6b 1721036922503113971692907638171526209875755521904893141463060735. Proof. rewrite <- vu6b. exact (acts_pow _ _ 274177 au6). Qed.
Definition cu7a : N := 0x9ca884016a9ae0ccc7d474a8d84519140837e437505a90a217cc3ecd3bb53a6.
Lemma vu7a : (pow_pos cu7 5704689200685129054721) = cu7a. Proof. vm_compute. reflexivity. Qed.
Lemma au7a : acts cu7a 1941205143757452242770874767385119893385096602219740994029055. Proof. rewrite <- vu7a. exact (acts_pow _ _ 5704689200685129054721 au7). Qed.
Definition cu7b : N := 0x3d5cb71a110f671392e965f9e4b713e93b04d92f3f0eaf518cdb42c9fdb2914c.
Lemma vu7b : (pow_pos cu7 59649589127497217) = cu7b. Proof. vm_compute. reflexivity. Qed.
Lemma au7b : acts cu7b 20297703374166229616474325006177763232573806344580020735. Proof. rewrite <- vu7b. exact (acts_pow _ _ 59649589127497217 au7). Qed.
Lemma iu0 : fmul (N.lxor cu0 1) 0x54d6a48aae687fb68b7f13ce6607e276afab085596734aa97762f281b25ed783 = 1. Proof. vm_compute. reflexivity. Qed.
Lemma nu0 v : x_wf v -> v <> zero -> N.iter (prodl factors / 3) stepL v <> v.
Proof. exact (no_period cu0 _ _ au0 iu0 v). Qed.
Lemma iu1 : fmul (N.lxor cu1 1) 0x9b17f5767b72e1a3c673d4c3e369b20235e972559753b37fdedc95dc103781f = 1. Proof. vm_compute. reflexivity. Qed.
Lemma nu1 v : x_wf v -> v <> zero -> N.iter (prodl factors / 5) stepL v <> v.
Proof. exact (no_period cu1 _ _ au1 iu1 v). Qed.
Lemma iu2 : fmul (N.lxor cu2 1) 0xf4646ef27133b2d46393a4c40448d75b8f3adcab0a20793ef8bb26f5b81e7ecf = 1. Proof. vm_compute. reflexivity. Qed.
Lemma nu2 v : x_wf v -> v <> zero -> N.iter (prodl factors / 17) stepL v <> v.
Proof. exact (no_period cu2 _ _ au2 iu2 v). Qed.
Lemma iu3 : fmul (N.lxor cu3 1) 0x618e9a9a97b4105e9870464ee696824b10a336ec58f59159b1165cabfe23cd76 = 1. Proof. vm_compute. reflexivity. Qed.
Lemma nu3 v : x_wf v -> v <> zero -> N.iter (prodl factors / 257) stepL v <> v.
Proof. exact (no_period cu3 _ _ au3 iu3 v). Qed.
Lemma iu5a : fmul (N.lxor cu5a 1) 0x56ced9120f236c15fdd49ed161d46abc0269afa58693de573c5dcc0645c4b0ff = 1. Proof. vm_compute. reflexivity. Qed.
Lemma nu5a v : x_wf v -> v <> zero -> N.iter (prodl factors / 641) stepL v <> v.
Proof. exact (no_period cu5a _ _ au5a iu5a v). Qed.
Lemma iu4 : fmul (N.lxor cu4 1) 0x5b7382b05dc5a20686e618650a39fab806017ce589bb2d98cf9b5a05139e793f = 1. Proof. vm_compute. reflexivity. Qed.
Lemma nu4 v : x_wf v -> v <> zero -> N.iter (prodl factors / 65537) stepL v <> v.
Proof. exact (no_period cu4 _ _ au4 iu4 v). Qed.
Lemma iu6a : fmul (N.lxor cu6a 1) 0x24d5461cfd63732f63b6b60adc840b312db07c0c8c7b46872d3955d70f9e6ac5 = 1. Proof. vm_compute. reflexivity. Qed.
Lemma nu6a v : x_wf v -> v <> zero -> N.iter (prodl factors / 274177) stepL v <> v.
Proof. exact (no_period cu6a _ _ au6a iu6a v). Qed.
Lemma iu5b : fmul (N.lxor cu5b 1) 0x1c10854fe79f6066b6b1fe5c68be2282e701b5777ef01c8fd5b0ea5458d18c36 = 1. Proof. vm_compute. reflexivity. Qed.
Lemma nu5b v : x_wf v -> v <> zero -> N.iter (prodl factors / 6700417) stepL v <> v.
Proof. exact (no_period cu5b _ _ au5b iu5b v). Qed.
Lemma iu6b : fmul (N.lxor cu6b 1) 0xc3bc6f4888606c0bfb4a6ce96aa43d28506b49c1c962aba2928641dd24af8cf8 = 1. Proof. vm_compute. reflexivity. Qed.
Lemma nu6b v : x_wf v -> v <> zero -> N.iter (prodl factors / 67280421310721) stepL v <> v.
Proof. exact (no_period cu6b _ _ au6b iu6b v). Qed.
Lemma iu7a : fmul (N.lxor cu7a 1) 0x2b0b5d0e0d5dcbfd343a0c7c13920e58856efc82f8b6f3e99a6368bb225afce6 = 1. Proof. vm_compute. reflexivity. Qed.
Lemma nu7a v : x_wf v -> v <> zero -> N.iter (prodl factors / 59649589127497217) stepL v <> v.
Proof. exact (no_period cu7a _ _ au7a iu7a v). Qed.
Lemma iu7b : fmul (N.lxor cu7b 1) 0xca8fcba3c0dd08871d4e3f7290e3e7fb8436109b90a55fd4bc6fe9d31b611e5 = 1. Proof. vm_compute. reflexivity. Qed.
Lemma nu7b v : x_wf v -> v <> zero -> N.iter (prodl factors / 5704689200685129054721) stepL v <> v.
Proof. exact (no_period cu7b _ _ au7b iu7b v). Qed.

Lemma no_factor_period v q : x_wf v -> v <> zero -> In q factors -> N.iter (prodl factors / q) stepL v <> v.
Proof.
  intros W Hv Hin. unfold factors in Hin. cbn [In] in Hin.
  repeat (destruct Hin as [<-|Hin]); [..|destruct Hin].
  - exact (nu0 v W Hv).
  - exact (nu1 v W Hv).
  - exact (nu2 v W Hv).
  - exact (nu3 v W Hv).
  - exact (nu5a v W Hv).
  - exact (nu4 v W Hv).
  - exact (nu6a v W Hv).
  - exact (nu5b v W Hv).
  - exact (nu6b v W Hv).
  - exact (nu7a v W Hv).
  - exact (nu7b v W Hv).
Qed.

Lemma iter_inj e a b : x_wf a -> x_wf b -> N.iter e stepL a = N.iter e stepL b -> a = b.
Proof.
  intros Wa Wb. induction e as [|e IH] using N.peano_ind; [auto|].
  rewrite !N.iter_succ. intros E. apply IH.
  apply step_inj; [apply wf_iter, Wa|apply wf_iter, Wb|].
  rewrite !step_eq by (apply wf_iter; assumption). exact E.
Qed.

Lemma full_cycle v : x_wf v -> N.iter (prodl factors) stepL v = v.
Proof.
  intros W. rewrite factors_prod. apply (iter_inj 1); [apply wf_iter, W|exact W|].
  rewrite <- N.iter_add. replace (1 + (2 ^ 256 - 1)) with (2 ^ 256) by lia.
  rewrite <- (acts256 v W). reflexivity.
Qed.

Lemma period_exact v : x_wf v -> v <> zero ->
  forall d, 0 < d < 2 ^ 256 - 1 -> N.iter d stepL v <> v.
Proof.
  intros W Hv d Hd. rewrite <- factors_prod in Hd. revert d Hd.
  apply (exact_period (fun d => N.iter d stepL v = v)) with (l := factors).
  - intros a b Ha Hb. rewrite N.iter_add, Hb. exact Ha.
  - intros a b Ha Hab. rewrite N.add_comm, N.iter_add, Ha in Hab. exact Hab.
  - reflexivity.
  - exact factors_prime.
  - apply full_cycle, W.
  - intros q Hq. apply no_factor_period; assumption.
Qed.

Lemma x_period s : x_wf s -> s <> zero ->
  N.iter (2 ^ 256 - 1) step s = s /\
  (forall i j, i < 2 ^ 256 - 1 -> j < 2 ^ 256 - 1 -> N.iter i step s = N.iter j step s -> i = j).
Proof.
  intros W Hs. rewrite <- factors_prod. split; [rewrite iter_step by exact W; apply full_cycle, W|].
  assert (G : forall i j, i < j -> j < prodl factors -> N.iter i stepL s = N.iter j stepL s -> False).
  { intros i j Hij Hj E. apply (period_exact s W Hs (j - i)); [rewrite <- factors_prod; lia|].
    apply (iter_inj i); [apply wf_iter, W|exact W|].
    rewrite <- N.iter_add. replace (i + (j - i)) with j by lia. symmetry; exact E. }
  intros i j Hi Hj E. rewrite !iter_step in E by exact W.
  destruct (N.lt_trichotomy i j) as [L|[L|L]]; [|exact L|].
  - exfalso. exact (G i j L Hj E).
  - exfalso. exact (G j i L Hi (eq_sym E)).
Qed.
