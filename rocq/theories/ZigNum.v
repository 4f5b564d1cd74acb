(** The constants of the sampler compared with the bell curve, as real numbers. *)
From Coq Require Import List ZArith Reals Lra Lia.
From Coquelicot Require Import Coquelicot.
From Verif Require Import ZigTables RngModel ProbSpec ProbFacts ExpBounds ZigFacts GaussInt.
Open Scope R_scope.

Opaque exp_neg80 odd_loop.

Definition rr : R := ziggurat_nor_r.
Definition iq : R := ziggurat_nor_inv_r.
Definition qq : R := / iq.

Lemma p58 : IZR (10 ^ 58) = IZR (10 ^ 29) * IZR (10 ^ 29). Proof. rewrite <- mult_IZR. f_equal. Qed.
Lemma p60 : IZR (10 ^ 60) = IZR (10 ^ 37) * IZR (10 ^ 23). Proof. rewrite <- mult_IZR. f_equal. Qed.
Lemma pos_2_58 : (0 < 2 * 10 ^ 58)%Z. Proof. reflexivity. Qed.
Lemma pos_58 : (0 < 10 ^ 58)%Z. Proof. reflexivity. Qed.
Lemma pos_29 : (0 < 10 ^ 29)%Z. Proof. reflexivity. Qed.
Lemma nonneg_58 : (0 <= 10 ^ 58)%Z. Proof. discriminate. Qed.
Lemma pos_inv : (0 < 2 * (nor_inv_r * nor_inv_r))%Z. Proof. reflexivity. Qed.
Lemma pos_inv1 : (0 < nor_inv_r)%Z. Proof. reflexivity. Qed.
Lemma pos_nr : (0 <= nor_r)%Z. Proof. discriminate. Qed.
Lemma pos_nr2 : (0 <= nor_r * nor_r)%Z. Proof. discriminate. Qed.
Lemma nonneg_z8 : (0 <= 8 * 2 ^ 80)%Z. Proof. discriminate. Qed.
Lemma z8_unit : IZR (8 * 2 ^ 80) = 8 * IZR unit80. Proof. rewrite mult_IZR. reflexivity. Qed.
Lemma nonneg_zr : (0 <= nor_r * 2 ^ 80 / 10 ^ 29)%Z. Proof. vm_compute. discriminate. Qed.
Lemma inv_u80 : IZR unit80 <> 0. Proof. pose proof unit80_pos. lra. Qed.

Lemma rr_sq : rr * rr = IZR (nor_r * nor_r) / IZR (10 ^ 58).
Proof.
  unfold rr, ziggurat_nor_r, nor_unit. rewrite mult_IZR, p58. pose proof (IZR_pow_pos 10 29 ltac:(lia) ltac:(lia)) as P.
  set (c := IZR (10 ^ 29)) in *. set (n := IZR nor_r). clearbody c n. field. lra.
Qed.
Lemma iq_pos : 0 < iq.
Proof. unfold iq, ziggurat_nor_inv_r. apply Rmult_lt_0_compat; [ apply IZR_lt; exact pos_inv1 | apply nor_unit_pos ]. Qed.
Lemma rr_nonneg : 0 <= rr.
Proof. unfold rr, ziggurat_nor_r. apply Rmult_le_pos; [ apply IZR_le; exact pos_nr | left; apply nor_unit_pos ]. Qed.
Lemma tail_area_eq : tail_area =
  IZR ((2 ^ 52 - nth 0 ki_double 0%Z) * nth 0 wi_double 0%Z * nth 255 fi_double 0%Z) / IZR (10 ^ 60).
Proof.
  unfold tail_area, area, xv, wv, fv, kv, wi_unit, fi_unit. rewrite !mult_IZR, minus_IZR, p60.
  pose proof (IZR_pow_pos 2 52 ltac:(lia) ltac:(lia)) as P52. pose proof (IZR_pow_pos 10 37 ltac:(lia) ltac:(lia)) as P37.
  pose proof (IZR_pow_pos 10 23 ltac:(lia) ltac:(lia)) as P23.
  set (a := IZR (nth 0 ki_double 0%Z)). set (b := IZR (nth 0 wi_double 0%Z)). set (c := IZR (nth 255 fi_double 0%Z)).
  set (x := IZR (2 ^ 52)) in *. set (y := IZR (10 ^ 37)) in *. set (z := IZR (10 ^ 23)) in *. clearbody a b c x y z. field. lra.
Qed.
Lemma area_eq : area = IZR (nth 0 wi_double 0%Z * 2 ^ 52 * nth 255 fi_double 0%Z) / IZR (10 ^ 60).
Proof.
  unfold area, xv, wv, fv, wi_unit, fi_unit. rewrite !mult_IZR, p60.
  pose proof (IZR_pow_pos 10 37 ltac:(lia) ltac:(lia)) as P37. pose proof (IZR_pow_pos 10 23 ltac:(lia) ltac:(lia)) as P23.
  set (b := IZR (nth 0 wi_double 0%Z)). set (c := IZR (nth 255 fi_double 0%Z)).
  set (x := IZR (2 ^ 52)) in *. set (y := IZR (10 ^ 37)) in *. set (z := IZR (10 ^ 23)) in *. clearbody b c x y z. field. lra.
Qed.

(** an inequality of integers over a common denominator *)
Lemma frac_le : forall a d c e, (0 < d)%Z -> (0 < e)%Z -> (a * e <= c * d)%Z -> IZR a / IZR d <= IZR c / IZR e.
Proof.
  intros a d c e Hd He H. apply IZR_le in H. rewrite !mult_IZR in H. apply IZR_lt in Hd. apply IZR_lt in He.
  apply Rmult_le_reg_r with (IZR d * IZR e); [ now apply Rmult_lt_0_compat | ].
  replace (IZR a / IZR d * (IZR d * IZR e)) with (IZR a * IZR e) by (field; lra).
  replace (IZR c / IZR e * (IZR d * IZR e)) with (IZR c * IZR d) by (field; lra). exact H.
Qed.

Lemma bell_8_eq : bell 8 = exp (- (8)) * exp (- (8)) * exp (- (8)) * exp (- (8)).
Proof. unfold bell. rewrite <- !exp_plus. f_equal. field. Qed.

Record zig_numbers : Prop := {
  zn_tail : Rabs (RInt bell rr 8 - tail_area) <= / IZR (10 ^ 13);
  zn_b8 : bell 8 <= / IZR (10 ^ 13);
  zn_bq : bell qq <= 1 / 500;
  zn_end : fv 255 - bell rr <= / IZR (10 ^ 15);
  zn_k0l : IZR (kv 0 - 1) * wv 0 <= rr;
  zn_k0h : rr <= IZR (kv 0) * wv 0;
  zn_k0 : (0 < kv 0 < 2 ^ 52)%Z;
  zn_w0 : 0 < wv 0;
  zn_f : 0 < fv 255;
  zn_q : Rabs (rr * iq - 1) <= / IZR (10 ^ 27);
  zn_r4 : rr <= 4;
  zn_iq : 1 / 4 <= iq <= 1;
  zn_ta : 3 / 10000 <= tail_area;
  zn_area : 1 / 1000 <= area <= 1 / 200;
  zn_f0 : fv 0 = 1
}.

Lemma z3 : forall z, IZR (z ^ 3) = IZR z ^ 3. Proof. intros. symmetry. apply (pow_IZR z 3). Qed.
Lemma z4 : forall z, IZR (z ^ 4) = IZR z ^ 4. Proof. intros. symmetry. apply (pow_IZR z 4). Qed.
Lemma z5 : forall z, IZR (z ^ 5) = IZR z ^ 5. Proof. intros. symmetry. apply (pow_IZR z 5). Qed.

Lemma tail_algebra : forall (e8l e8h erl erh s8l s8h t8 srl srh tr U D P TA : Z) (i8 ir it : R),
  (0 < U)%Z -> (0 < D)%Z -> (0 < P)%Z ->
  (((e8h ^ 4 * s8h + 301 * t8 * U ^ 4 - erl * srl * U ^ 3) * D - TA * U ^ 5) * P <= U ^ 5 * D)%Z ->
  ((TA * U ^ 5 - (e8l ^ 4 * s8l - (erh * srh * U ^ 3 + 121 * tr * U ^ 4)) * D) * P <= U ^ 5 * D)%Z ->
  (IZR e8l / IZR U) ^ 4 * (IZR s8l / IZR U) <= i8 <= (IZR e8h / IZR U) ^ 4 * (IZR s8h / IZR U) + 301 * (IZR t8 / IZR U) ->
  IZR erl / IZR U * (IZR srl / IZR U) <= ir <= IZR erh / IZR U * (IZR srh / IZR U) + 121 * (IZR tr / IZR U) ->
  i8 = ir + it -> Rabs (it - IZR TA / IZR D) <= / IZR P.
Proof.
  intros e8l e8h erl erh s8l s8h t8 srl srh tr U D P TA i8 ir it HU HD HP T1 T2 I8 IR CH.
  apply IZR_lt in HU, HD, HP. apply IZR_le in T1, T2.
  rewrite !mult_IZR, !minus_IZR, !mult_IZR, ?minus_IZR, ?plus_IZR, !mult_IZR, ?z3, ?z4, ?z5 in T1, T2.
  set (u := IZR U) in *. set (d := IZR D) in *. set (p := IZR P) in *. set (ta := IZR TA) in *. clearbody d p ta u.
  assert (SP : 0 < u ^ 5 * d * p) by (apply Rmult_lt_0_compat; [ apply Rmult_lt_0_compat; [ now apply pow_lt | exact HD ] | exact HP ]).
  assert (RI : 0 <= / (u ^ 5 * d * p)) by (left; now apply Rinv_0_lt_compat).
  apply Rmult_le_compat_r with (r := / (u ^ 5 * d * p)) in T1, T2; try exact RI.
  replace (u ^ 5 * d * / (u ^ 5 * d * p)) with (/ p) in T1, T2 by (field; repeat split; lra).
  match type of T1 with ?x <= _ => replace x with ((IZR e8h / u) ^ 4 * (IZR s8h / u) + 301 * (IZR t8 / u) - IZR erl / u * (IZR srl / u) - ta / d) in T1 by (field; repeat split; lra) end.
  match type of T2 with ?x <= _ => replace x with (ta / d - ((IZR e8l / u) ^ 4 * (IZR s8l / u) - (IZR erh / u * (IZR srh / u) + 121 * (IZR tr / u)))) in T2 by (field; repeat split; lra) end.
  apply Rabs_le. lra.
Qed.
Lemma pos_80 : (0 < 2 ^ 80)%Z. Proof. reflexivity. Qed.
Lemma pos_60 : (0 < 10 ^ 60)%Z. Proof. reflexivity. Qed.
Lemma pos_13 : (0 < 10 ^ 13)%Z. Proof. reflexivity. Qed.

Lemma numbers : zig_numbers.
Proof.
  destruct check_facts as (e8l & e8h & erl & erh & eql & eqh & s8l & s8h & t8 & srl & srh & tr & E8 & ER & EQ & H8 & HR & C).
  cbv zeta in C.
  destruct C as (P1 & P2 & P3 & P4 & T1 & T2 & B8 & BQ & BR & K1 & K2 & K3 & K4 & W0 & F0 & Q1 & Q2 & Q3 & Q3' & TA & A1 & A2 & FZ).
  unfold e8 in E8. unfold er in ER. unfold eq_ in EQ. unfold h8 in H8. unfold hr in HR.
  apply exp_neg80_sound in E8; [ | lia | lia ]. apply exp_neg80_sound in ER; [ | exact pos_nr2 | exact pos_2_58 ].
  apply exp_neg80_sound in EQ; [ | exact nonneg_58 | exact pos_inv ].
  replace (IZR 8 / IZR 1) with 8 in E8 by (cbn; field).
  pose proof unit80_pos as U. pose proof rr_nonneg as RN. pose proof iq_pos as IP.
  assert (BRR : bell rr = exp (- (IZR (nor_r * nor_r) / IZR (2 * 10 ^ 58)))).
  { apply bell_of; [ exact pos_2_58 | ]. rewrite rr_sq, (mult_IZR 2). pose proof (IZR_lt _ _ pos_58) as P. set (c := IZR (10 ^ 58)) in *. set (n := IZR (nor_r * nor_r)). clearbody c n. field. lra. }
  rewrite <- BRR in ER.
  assert (BQQ : bell qq = exp (- (IZR (10 ^ 58) / IZR (2 * (nor_inv_r * nor_inv_r))))).
  { apply bell_of; [ exact pos_inv | ]. unfold qq, iq, ziggurat_nor_inv_r, nor_unit. rewrite p58, !mult_IZR.
    pose proof (IZR_lt _ _ pos_29) as P. pose proof (IZR_lt _ _ pos_inv1) as P'.
    set (c := IZR (10 ^ 29)) in *. set (n := IZR nor_inv_r) in *. clearbody c n. field. lra. }
  rewrite <- BQQ in EQ.
  set (u := IZR unit80) in *.
  assert (L8 : (IZR e8l / u) ^ 4 <= bell 8 <= (IZR e8h / u) ^ 4).
  { rewrite bell_8_eq. replace (exp (- (8)) * exp (- (8)) * exp (- (8)) * exp (- (8))) with (exp (- (8)) ^ 4) by ring.
    assert (0 <= IZR e8l / u) by (apply Rmult_le_pos; [ now apply IZR_le | left; now apply Rinv_0_lt_compat ]).
    split; apply pow_incr; split; try lra; apply Rlt_le, exp_pos. }
  assert (P1' : 0 <= (IZR e8l / u) ^ 4) by (apply pow_le, Rmult_le_pos; [ now apply IZR_le | left; now apply Rinv_0_lt_compat ]).
  assert (P2' : 0 <= IZR erl / u) by (apply Rmult_le_pos; [ now apply IZR_le | left; now apply Rinv_0_lt_compat ]).
  pose proof (bell_int_enclosed 150 64 1 _ _ 8 s8l s8h t8 _ _ ltac:(lia) ltac:(lia) ltac:(lia) ltac:(lra) ltac:(cbn; field) nonneg_z8
                (conj (Req_le _ _ z8_unit) (Req_le _ _ (eq_sym z8_unit))) H8 P1' L8 P3) as I8.
  assert (ZR : IZR (nor_r * 2 ^ 80 / 10 ^ 29) <= rr * IZR unit80 <= IZR (ceil_div (nor_r * 2 ^ 80) (10 ^ 29))).
  { replace (rr * IZR unit80) with (IZR (nor_r * 2 ^ 80) / IZR (10 ^ 29)).
    - split; [ apply floor_div_le; exact pos_29 | apply ceil_div_ge; exact pos_29 ].
    - unfold rr, ziggurat_nor_r, nor_unit. rewrite mult_IZR, p80. pose proof (IZR_lt _ _ pos_29) as P. fold u.
      set (c := IZR (10 ^ 29)) in *. set (n := IZR nor_r) in *. clearbody c n u. field. lra. }
  pose proof (bell_int_enclosed 60 _ _ _ _ rr srl srh tr _ _ ltac:(lia) pos_nr2 pos_58 RN rr_sq nonneg_zr ZR HR P2' ER P4) as IR.
  fold u in I8, IR. clear H8 HR.
  replace (INR (2 * 150 + 1)) with 301 in I8 by (rewrite INR_IZR_INZ; reflexivity).
  replace (INR (2 * 60 + 1)) with 121 in IR by (rewrite INR_IZR_INZ; reflexivity).
  pose proof (bell_chasles 0 rr 8) as CH.
  constructor.
  - (* zn_tail *)
    rewrite tail_area_eq. apply (tail_algebra _ _ _ _ _ _ _ _ _ _ (2 ^ 80) (10 ^ 60) (10 ^ 13) _ (RInt bell 0 8) (RInt bell 0 rr) _ pos_80 pos_60 pos_13 T1 T2 I8 IR CH).
  - (* zn_b8 *)
    apply IZR_le in B8. rewrite mult_IZR, !z4, p80 in B8. fold u in B8.
    pose proof (IZR_pow_pos 10 13 ltac:(lia) ltac:(lia)) as P13. set (p := IZR (10 ^ 13)) in *. clearbody p u.
    eapply Rle_trans; [ apply L8 | ]. assert (SP : 0 < u ^ 4) by now apply pow_lt.
    apply Rmult_le_reg_r with (u ^ 4 * p); [ now apply Rmult_lt_0_compat | ].
    replace ((IZR e8h / u) ^ 4 * (u ^ 4 * p)) with (IZR e8h ^ 4 * p) by (field; lra).
    replace (/ p * (u ^ 4 * p)) with (u ^ 4) by (field; lra). exact B8.
  - (* zn_bq *)
    apply IZR_le in BQ. rewrite mult_IZR, p80 in BQ. fold u in BQ. clearbody u.
    eapply Rle_trans; [ apply EQ | ]. apply Rmult_le_reg_r with u; [ exact U | ]. unfold Rdiv at 1. rewrite Rmult_assoc, Rinv_l, Rmult_1_r by lra. lra.
  - (* zn_end *)
    apply IZR_le in BR. rewrite !mult_IZR, minus_IZR, !mult_IZR, p80 in BR. fold u in BR. unfold fv, fi_unit.
    pose proof (IZR_pow_pos 10 23 ltac:(lia) ltac:(lia)) as P23. pose proof (IZR_pow_pos 10 15 ltac:(lia) ltac:(lia)) as P15.
    set (p := IZR (10 ^ 15)) in *. set (c := IZR (10 ^ 23)) in *. set (F := IZR (nth 255 fi_double 0%Z)) in *. clearbody p c F u.
    apply Rle_trans with (F * (1 / c) - IZR erl / u); [ lra | ].
    apply Rmult_le_reg_r with (u * c * p); [ repeat apply Rmult_lt_0_compat; assumption | ].
    replace ((F * (1 / c) - IZR erl / u) * (u * c * p)) with ((F * u - IZR erl * c) * p) by (field; lra).
    replace (/ p * (u * c * p)) with (u * c) by (field; lra). exact BR.
  - (* zn_k0l *)
    apply IZR_le in K1. rewrite !mult_IZR in K1. unfold kv, wv, rr, ziggurat_nor_r, wi_unit, nor_unit. rewrite p29.
    pose proof (IZR_pow_pos 10 29 ltac:(lia) ltac:(lia)) as P29. pose proof (IZR_pow_pos 10 8 ltac:(lia) ltac:(lia)) as P8.
    set (a := IZR (nth 0 ki_double 0%Z - 1)) in *. set (b := IZR (nth 0 wi_double 0%Z)) in *. set (c := IZR (10 ^ 29)) in *. set (d := IZR (10 ^ 8)) in *.
    set (n := IZR nor_r) in *. clearbody a b c d n.
    apply Rmult_le_reg_r with (c * d); [ now apply Rmult_lt_0_compat | ].
    replace (a * (b * (1 / (c * d))) * (c * d)) with (a * b) by (field; lra).
    replace (n * (1 / c) * (c * d)) with (n * d) by (field; lra). exact K1.
  - (* zn_k0h *)
    apply IZR_le in K2. rewrite !mult_IZR in K2. unfold kv, wv, rr, ziggurat_nor_r, wi_unit, nor_unit. rewrite p29.
    pose proof (IZR_pow_pos 10 29 ltac:(lia) ltac:(lia)) as P29. pose proof (IZR_pow_pos 10 8 ltac:(lia) ltac:(lia)) as P8.
    set (a := IZR (nth 0 ki_double 0%Z)) in *. set (b := IZR (nth 0 wi_double 0%Z)) in *. set (c := IZR (10 ^ 29)) in *. set (d := IZR (10 ^ 8)) in *.
    set (n := IZR nor_r) in *. clearbody a b c d n.
    apply Rmult_le_reg_r with (c * d); [ now apply Rmult_lt_0_compat | ].
    replace (a * (b * (1 / (c * d))) * (c * d)) with (a * b) by (field; lra).
    replace (n * (1 / c) * (c * d)) with (n * d) by (field; lra). exact K2.
  - split; [ exact K3 | exact K4 ].
  - apply Rmult_lt_0_compat; [ apply IZR_lt; exact W0 | apply wi_unit_pos ].
  - apply Rmult_lt_0_compat; [ apply IZR_lt; exact F0 | apply fi_unit_pos ].
  - (* zn_q *)
    apply IZR_le in Q1. rewrite !mult_IZR, abs_IZR, minus_IZR, !mult_IZR, p58 in Q1. unfold rr, iq, ziggurat_nor_r, ziggurat_nor_inv_r, nor_unit.
    pose proof (IZR_pow_pos 10 29 ltac:(lia) ltac:(lia)) as P29. pose proof (IZR_pow_pos 10 27 ltac:(lia) ltac:(lia)) as P27.
    set (c := IZR (10 ^ 29)) in *. set (d := IZR (10 ^ 27)) in *. set (n := IZR nor_r) in *. set (m := IZR nor_inv_r) in *. clearbody c d n m.
    replace (n * (1 / c) * (m * (1 / c)) - 1) with ((n * m - c * c) * / (c * c)) by (field; lra).
    rewrite Rabs_mult, (Rabs_right (/ (c * c))) by (left; apply Rinv_0_lt_compat, Rmult_lt_0_compat; assumption).
    apply Rmult_le_reg_r with (c * c * d); [ repeat apply Rmult_lt_0_compat; assumption | ].
    replace (Rabs (n * m - c * c) * / (c * c) * (c * c * d)) with (Rabs (n * m - c * c) * d) by (field; lra).
    replace (/ d * (c * c * d)) with (c * c) by (field; lra). exact Q1.
  - apply IZR_le in Q2. rewrite mult_IZR in Q2. unfold rr, ziggurat_nor_r, nor_unit.
    pose proof (IZR_pow_pos 10 29 ltac:(lia) ltac:(lia)) as P29. set (c := IZR (10 ^ 29)) in *. set (n := IZR nor_r) in *. clearbody c n.
    apply Rmult_le_reg_r with c; [ exact P29 | ]. replace (n * (1 / c) * c) with n by (field; lra). exact Q2.
  - apply IZR_le in Q3, Q3'. rewrite mult_IZR in Q3. unfold iq, ziggurat_nor_inv_r, nor_unit.
    pose proof (IZR_pow_pos 10 29 ltac:(lia) ltac:(lia)) as P29. set (c := IZR (10 ^ 29)) in *. set (n := IZR nor_inv_r) in *. clearbody c n.
    split; (apply Rmult_le_reg_r with c; [ exact P29 | ]); replace (n * (1 / c) * c) with n by (field; lra); lra.
  - rewrite tail_area_eq. apply IZR_le in TA. rewrite !(mult_IZR _ (10 ^ 4)), (mult_IZR 3) in TA.
    pose proof (IZR_pow_pos 10 60 ltac:(lia) ltac:(lia)) as P60. set (d := IZR (10 ^ 60)) in *.
    set (TAZ := ((2 ^ 52 - nth 0 ki_double 0) * nth 0 wi_double 0 * nth 255 fi_double 0)%Z) in *.
    replace (IZR (10 ^ 4)) with 10000 in TA by reflexivity. clearbody d TAZ.
    apply Rmult_le_reg_r with d; [ exact P60 | ]. unfold Rdiv at 2. rewrite Rmult_assoc, Rinv_l, Rmult_1_r by lra. lra.
  - rewrite area_eq. apply IZR_le in A1, A2. rewrite (mult_IZR _ 200) in A1. rewrite (mult_IZR _ 1000) in A2.
    pose proof (IZR_pow_pos 10 60 ltac:(lia) ltac:(lia)) as P60. set (d := IZR (10 ^ 60)) in *.
    set (v := IZR (nth 0 wi_double 0 * 2 ^ 52 * nth 255 fi_double 0)%Z) in *. clearbody d v.
    split; (apply Rmult_le_reg_r with d; [ exact P60 | ]); unfold Rdiv; rewrite !(Rmult_assoc v), Rinv_l, Rmult_1_r by lra; lra.
  - unfold fv. rewrite FZ. unfold fi_unit. pose proof (IZR_pow_pos 10 23 ltac:(lia) ltac:(lia)) as P. set (c := IZR (10 ^ 23)) in *. clearbody c. field. lra.
Qed.
