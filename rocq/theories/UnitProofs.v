(** Proofs for C182: how the numerical routines behave when the unit of time is divided by c, the unit of length by l and the unit of temperature by kt *)
From Coq Require Import Reals Lra Lia List FunctionalExtensionality.
From Verif Require Import Base BaseFacts Grid Flux Utilities Qgpv Pipeline RefStates DirInv.
Import ListNotations.
Open Scope R_scope.

Lemma Rltb_pos k x y : 0 < k -> Rltb (k * x) (k * y) = Rltb x y.
Proof. intros K. unfold Rltb. destruct (Rlt_dec (k * x) (k * y)) as [a|a], (Rlt_dec x y) as [b|b]; try reflexivity; exfalso; [apply b, (Rmult_lt_reg_l k); assumption|apply a, Rmult_lt_compat_l; assumption]. Qed.
Lemma Rleb_pos k x y : 0 < k -> Rleb (k * x) (k * y) = Rleb x y.
Proof. intros K. unfold Rleb. destruct (Rle_dec (k * x) (k * y)) as [a|a], (Rle_dec x y) as [b|b]; try reflexivity; exfalso; [apply b, (Rmult_le_reg_l k); assumption|apply a, Rmult_le_compat_l; lra]. Qed.
Lemma Rltb_pos0 k x : 0 < k -> Rltb 0 (k * x) = Rltb 0 x.
Proof. intros K. rewrite <- (Rltb_pos k 0 x) by assumption. rewrite Rmult_0_r. reflexivity. Qed.
Lemma Rleb_pos0 k x : 0 < k -> Rleb (k * x) 0 = Rleb x 0.
Proof. intros K. rewrite <- (Rleb_pos k x 0) by assumption. rewrite Rmult_0_r. reflexivity. Qed.
Lemma Rabs_scal k x : 0 < k -> Rabs (k * x) = k * Rabs x.
Proof. intros K. rewrite Rabs_mult, (Rabs_pos_eq k) by lra. reflexivity. Qed.
Lemma ratio k x y : k <> 0 -> (k * x) / (k * y) = x / y.
Proof. intros K. unfold Rdiv. rewrite Rinv_mult. generalize (/ y) as z. intros z. field. exact K. Qed.
Lemma ratio_neg k x y : k <> 0 -> - (k * x) / (k * y) = - x / y.
Proof. intros K. replace (- (k * x)) with (k * - x) by ring. apply ratio, K. Qed.

Lemma loop_scal k n (f g : nat -> R -> R) : (forall i s, g i (k * s) = k * f i s) -> loop n g = k * loop n f.
Proof. intros H. induction n as [|n IH]; cbn [loop]; toR; [ring|]. rewrite IH. apply H. Qed.
Lemma nsum_scal k n (f g : nat -> R) : (forall i, g i = k * f i) -> nsum n g = k * nsum n f.
Proof. intros H. induction n as [|n IH]; cbn [nsum]; toR; [ring|]. rewrite IH, H. ring. Qed.
Lemma fold_scal {T} k (f g : R -> T -> R) xs s : (forall y x, In x xs -> g (k * y) x = k * f y x) -> fold_left g xs (k * s) = k * fold_left f xs s.
Proof. revert s. induction xs as [|x xs IH]; intros s H; cbn [fold_left]; [reflexivity|]. rewrite H by (left; reflexivity). apply IH. intros y z Z. apply H. right. exact Z. Qed.
Lemma fold_scal0 {T} k (f g : R -> T -> R) xs : (forall y x, In x xs -> g (k * y) x = k * f y x) -> fold_left g xs 0 = k * fold_left f xs 0.
Proof. intros H. rewrite <- (fold_scal k f g xs 0 H), Rmult_0_r. reflexivity. Qed.
Lemma lmax_scal {T} k (f : T -> R) xs : 0 < k -> lmax (map (fun x => k * f x) xs) = k * lmax (map f xs).
Proof.
  intros K. destruct xs as [|x xs]; cbn [map lmax]; toR; [ring|]. generalize (f x) as s. clear x.
  induction xs as [|x xs IH]; intros s; cbn [map fold_left]; [reflexivity|]. rewrite <- IH. f_equal. unfold nmax. toR. rewrite Rltb_pos by assumption. destruct (Rltb _ _); reflexivity.
Qed.
Lemma lmin_scal {T} k (f : T -> R) xs : 0 < k -> lmin (map (fun x => k * f x) xs) = k * lmin (map f xs).
Proof.
  intros K. destruct xs as [|x xs]; cbn [map lmin]; toR; [ring|]. generalize (f x) as s. clear x.
  induction xs as [|x xs IH]; intros s; cbn [map fold_left]; [reflexivity|]. rewrite <- IH. f_equal. unfold nmin. toR. rewrite Rltb_pos by assumption. destruct (Rltb _ _); reflexivity.
Qed.

Definition scale2 (k : R) (x : arr2 R) : arr2 R := fun i j => k * x i j.
Definition scale3 (k : R) (x : arr3 R) : arr3 R := fun i j m => k * x i j m.
Definition scale1 (k : R) (x : nat -> R) : nat -> R := fun i => k * x i.

Definition rs_units (c l kt : R) (P : rsdims R) : rsdims R :=
  {| s_nlon := s_nlon P; s_nlat := s_nlat P; s_kmax := s_kmax P; s_jd := s_jd P; s_npart := s_npart P; s_maxits := s_maxits P;
     s_a := l * s_a P; s_om := c * s_om P; s_dz := l * s_dz P; s_eps := s_eps P; s_h := l * s_h P; s_dphi := s_dphi P; s_dlambda := s_dlambda P;
     s_r := l * l * c * c * / kt * s_r P; s_cp := l * l * c * c * / kt * s_cp P; s_rjac := s_rjac P |}.

(** [un]: both sides are polynomials in the values, in c, l and in inverses *)
Ltac atoms c l kt := repeat match goal with |- context [Rinv ?x] => tryif (first [constr_eq x c|constr_eq x l|constr_eq x kt]) then fail else (let y := fresh "inv" in set (y := Rinv x); clearbody y) end.
Ltac un c l kt := unfold Rdiv; rewrite ?Rinv_mult, ?Rinv_inv; atoms c l kt; field; repeat split; assumption.

Section RefUnits.
  Variables c l kt : R.
  Hypothesis Hc : 0 < c.
  Hypothesis Hl : 0 < l.
  Hypothesis Ht : 0 < kt.
  Let c0 : c <> 0. Proof. lra. Qed.
  Let l0 : l <> 0. Proof. lra. Qed.
  Let k0 : kt <> 0. Proof. lra. Qed.
  Let ll : 0 < l * l. Proof. nra. Qed.
  Let lc : 0 < l * c. Proof. nra. Qed.
  Let pos4 : l * l * c * c * / kt <> 0. Proof. assert (I := Rinv_0_lt_compat kt Ht). apply Rgt_not_eq. repeat apply Rmult_lt_0_compat; assumption. Qed.
  Variable P : rsdims R.
  Notation P' := (rs_units c l kt P).
  Ltac pj := cbn [rs_units s_nlon s_nlat s_kmax s_jd s_npart s_maxits s_a s_om s_dz s_eps s_h s_dphi s_dlambda s_r s_cp s_rjac].

  Lemma alat_u j : alat P' j = l * l * alat P j.
  Proof. unfold alat. toR. change (phi P' j) with (phi P j). pj. ring. Qed.
  Lemma zlev_u k : zlev P' k = l * zlev P k.
  Proof. unfold zlev. toR. pj. ring. Qed.
  Lemma rkappa_u : rkappa P' = rkappa P.
  Proof. unfold rkappa. toR. pj. apply ratio, pos4. Qed.
  Lemma zm_u q x r k : zonal_mean P' (scale3 q x) r k = q * zonal_mean P x r k.
  Proof. unfold zonal_mean. pj. apply loop_scal. intros i s. toR. unfold scale3. unfold Rdiv. ring. Qed.
  Lemma zm_s x r k : zonal_mean P' x r k = zonal_mean P x r k.
  Proof. reflexivity. Qed.
  Lemma tb_u x k : tb P' (scale3 kt x) k = kt * tb P x k.
  Proof. unfold tb, tbar. pj. change (row_lat P') with (row_lat P). toR. unfold Rdiv. rewrite <- Rmult_assoc. f_equal. apply loop_scal. intros r s. rewrite zm_u. toR. ring. Qed.

  Variable pv : arr3 R.
  Notation pv' := (scale3 c pv).
  Lemma qmax_u k : qmax P' pv' k = c * qmax P pv k.
  Proof. unfold qmax. change (cells P') with (cells P). apply (lmax_scal c (fun p => pv (fst p) (snd p) k)), Hc. Qed.
  Lemma qmin_u k : qmin P' pv' k = c * qmin P pv k.
  Proof. unfold qmin. change (cells P') with (cells P). apply (lmin_scal c (fun p => pv (fst p) (snd p) k)), Hc. Qed.
  Lemma dq_u k : dq P' pv' k = c * dq P pv k.
  Proof. unfold dq. rewrite qmax_u, qmin_u. pj. toR. unfold Rdiv. ring. Qed.
  Lemma qn_u k n : qn P' pv' k n = c * qn P pv k n.
  Proof. unfold qn. rewrite qmax_u, dq_u. toR. ring. Qed.
  Lemma bin_u k p : bin P' pv' k p = bin P pv k p.
  Proof.
    unfold bin. rewrite qmax_u, dq_u. do 2 f_equal. toR. unfold scale3.
    replace (c * qmax P pv k - c * pv (fst p) (snd p) k) with (c * (qmax P pv k - pv (fst p) (snd p) k)) by ring. apply ratio, c0.
  Qed.
  Lemma da_u j : da P' j = l * l * da P j.
  Proof. unfold da. toR. pj. ring. Qed.
  Lemma an_u k n : an P' pv' k n = l * l * an P pv k n.
  Proof.
    unfold an. change (cells P') with (cells P). apply fold_scal0. intros y p _. cbv beta. rewrite bin_u, da_u. toR. destruct (Z.eqb _ _); ring.
  Qed.
  Lemma cn_u k n : cn P' pv' k n = l * l * c * cn P pv k n.
  Proof.
    unfold cn. change (cells P') with (cells P). apply fold_scal0. intros y p _. cbv beta. rewrite bin_u, da_u. toR. unfold scale3. destruct (Z.eqb _ _); ring.
  Qed.
  Lemma cumulate_u q (f g : nat -> R) n : (forall m, g m = q * f m) -> cumulate g n = q * cumulate f n.
  Proof.
    intros H. induction n as [|n IH]; [cbn [cumulate]; toR; ring|]. destruct n as [|n]; [cbn [cumulate]; toR; ring|].
    change (cumulate g (S n) + g (S (S n)) = q * (cumulate f (S n) + f (S (S n)))). rewrite IH, H. ring.
  Qed.
  Lemma aan_u k n : aan P' pv' k n = l * l * aan P pv k n.
  Proof. unfold aan. apply cumulate_u. intros m. apply an_u. Qed.
  Lemma ccn_u k n : ccn P' pv' k n = l * l * c * ccn P pv k n.
  Proof. unfold ccn. apply cumulate_u. intros m. apply cn_u. Qed.
  Lemma bracketed_u k j n : bracketed P' pv' k j n = bracketed P pv k j n.
  Proof. unfold bracketed. rewrite !aan_u, alat_u. toR. rewrite Rleb_pos, Rltb_pos by assumption. reflexivity. Qed.
  Lemma at_row_u q k j (v v' : nat -> R) old : (forall n, v' n = q * v n) -> at_row P' pv' k j v' (q * old) = q * at_row P pv k j v old.
  Proof.
    intros H. unfold at_row. pj. apply fold_scal. intros y n _. cbv beta zeta. rewrite bracketed_u. destruct (bracketed _ _ _ _ _); [|reflexivity].
    rewrite !aan_u, alat_u, !H. toR.
    replace (l * l * alat P j - l * l * aan P pv k n) with (l * l * (alat P j - aan P pv k n)) by ring.
    replace (l * l * aan P pv k (n + 1) - l * l * aan P pv k n) with (l * l * (aan P pv k (n + 1) - aan P pv k n)) by ring.
    rewrite ratio by lra. ring.
  Qed.
  Lemma qref0_u j k : qref0 P' pv' j k = c * qref0 P pv j k.
  Proof.
    unfold qref0. change (interior P' k) with (interior P k). destruct (interior P k); toR; [|ring]. pj. destruct (Nat.eqb _ _); [apply qmax_u|].
    rewrite <- (Rmult_0_r c) at 1. apply at_row_u. intros n. apply qn_u.
  Qed.
  Lemma cref_u g j k : cref P' pv' (scale2 (l * l * c) g) j k = l * l * c * cref P pv g j k.
  Proof.
    unfold cref. change (interior P' k) with (interior P k). pj. destruct (interior P k && Nat.ltb j (s_jd P)); [|reflexivity].
    unfold scale2. apply at_row_u. intros n. apply ccn_u.
  Qed.
  Lemma cbar_from_u k m : cbar_from P' pv' k m = l * l * c * cbar_from P pv k m.
  Proof. induction m as [|m IH]; cbn [cbar_from]; toR; [ring|]. rewrite IH. unfold qbar. rewrite !zm_u. pj. toR. ring. Qed.
  Lemma cbar_u g j k : cbar P' pv' (scale2 (l * l * c) g) j k = l * l * c * cbar P pv g j k.
  Proof. unfold cbar. change (interior P' k) with (interior P k). destruct (interior P k); [pj; apply cbar_from_u|reflexivity]. Qed.
  Lemma qref1_u j k : (2 <= j)%nat -> qref1 P' pv' j k = qref1 P pv j k.
  Proof.
    intros J. unfold qref1. replace (Nat.leb 2 j) with true by (symmetry; apply Nat.leb_le, J). rewrite qref0_u. change (phi P' j) with (phi P j). pj. toR.
    un c l kt.
  Qed.
  Lemma rs_qref_u j k : (1 <= j)%nat -> rs_qref P' pv' j k = rs_qref P pv j k.
  Proof.
    intros J. unfold rs_qref. change (interior P' k) with (interior P k). destruct (Nat.eqb_spec j 1) as [->|N]; cbn [andb].
    - destruct (interior P k) eqn:I; [rewrite !qref1_u by auto; reflexivity|]. unfold qref1. cbn [Nat.leb]. rewrite qref0_u. unfold qref0. rewrite I. toR. ring.
    - apply qref1_u. destruct j as [|[|j]]; [exfalso; inversion J|exfalso; apply N; reflexivity|do 2 apply le_n_S; apply Nat.le_0_l].
  Qed.

  Variables (uu pt : arr3 R) (stat : nat -> R) (g1 g2 : arr2 R).
  Notation uu' := (scale3 (l * c) uu).
  Notation st' := (scale1 (/ l * kt) stat).
  Notation pt' := (scale3 kt pt).
  Notation g1' := (scale2 (l * l * c) g1).
  Notation g2' := (scale2 (l * l * c) g2).

  Lemma fact_u j : fact P' j = / l * kt * fact P j.
  Proof. unfold fact. toR. change (phi P' j) with (phi P j). pj. un c l kt. Qed.
  Lemma half_level_u z1 z2 s1 s2 : half_level P' (l * z1) (l * z2) (/ l * kt * s1) (/ l * kt * s2) = l * / kt * half_level P z1 z2 s1 s2.
  Proof.
    unfold half_level. cbv zeta. rewrite rkappa_u. toR. pj.
    replace (nhalf * (l * z1 + l * z2)) with (l * (nhalf * (z1 + z2))) by ring. set (z := nhalf * (z1 + z2)).
    replace (rkappa P * (l * z)) with (l * (rkappa P * z)) by ring. rewrite ratio_neg, ratio by assumption.
    replace (nhalf * (/ l * kt * s1 + / l * kt * s2)) with (/ l * kt * (nhalf * (s1 + s2))) by ring. un c l kt.
  Qed.
  Lemma cjk_u j k : cjk P' st' j k = cjk P stat j k.
  Proof. unfold cjk, scale1. rewrite !zlev_u, half_level_u, fact_u. pj. toR. rewrite ratio by assumption. un c l kt. Qed.
  Lemma djk_u j k : djk P' st' j k = djk P stat j k.
  Proof. unfold djk, scale1. rewrite !zlev_u, half_level_u, fact_u. pj. toR. rewrite ratio by assumption. un c l kt. Qed.
  Lemma ejk_u j k : ejk P' st' j k = ejk P stat j k.
  Proof. unfold ejk. rewrite cjk_u, djk_u. reflexivity. Qed.
  Lemma fjk_u j k : (2 <= j)%nat -> fjk P' pv' j k = l * c * fjk P pv j k.
  Proof. intros J. unfold fjk. rewrite !rs_qref_u by lia. pj. toR. ring. Qed.
  Lemma anormf_u : anormf P' pv' = l * c * anormf P pv.
  Proof.
    unfold anormf. change (interior_points P') with (interior_points P). apply fold_scal0. intros y [j k] I. cbn [fst snd]. rewrite fjk_u; [toR; rewrite Rabs_scal by assumption; ring|].
    unfold interior_points, do_, range in I. apply in_flat_map in I. destruct I as (j' & I1 & I2). apply in_map_iff in I2. destruct I2 as (k' & E & _). injection E as -> ->. apply in_seq in I1. lia.
  Qed.

  Lemma set2_u q u j k v : set2 (scale2 q u) j k (q * v) = scale2 q (set2 u j k v).
  Proof. extensionality j'. extensionality k'. unfold set2, scale2. destruct (_ && _); reflexivity. Qed.
  Lemma resid_u u j k : (2 <= j)%nat -> resid P' pv' st' (scale2 (l * c) u) j k = l * c * resid P pv stat u j k.
  Proof. intros J. unfold resid. rewrite cjk_u, djk_u, ejk_u, fjk_u by exact J. unfold scale2. change (ajk P' j) with (ajk P j). change (bjk P' j) with (bjk P j). toR. ring. Qed.
  Definition pair_u (s : arr2 R * R) : arr2 R * R := (scale2 (l * c) (fst s), l * c * snd s).
  Lemma point_u n om j s k : (2 <= j)%nat -> point P' pv' st' n om j (pair_u s) k = pair_u (point P pv stat n om j s k).
  Proof.
    intros J. unfold point. destruct (Nat.eqb _ _); [|reflexivity]. destruct s as [u a]. unfold pair_u at 1. cbn [fst snd]. cbv zeta.
    rewrite resid_u, ejk_u by exact J. toR. rewrite Rabs_scal by assumption. unfold pair_u. cbn [fst snd]. f_equal; [|ring].
    rewrite <- set2_u. f_equal. destruct (Reqb _ _); [ring|]. unfold scale2, Rdiv. ring.
  Qed.
  Lemma fold_pair {T} (f g : arr2 R * R -> T -> arr2 R * R) xs s : (forall y x, In x xs -> g (pair_u y) x = pair_u (f y x)) -> fold_left g xs (pair_u s) = pair_u (fold_left f xs s).
  Proof. revert s. induction xs as [|x xs IH]; intros s H; cbn [fold_left]; [reflexivity|]. rewrite H by (left; reflexivity). apply IH. intros y z Z. apply H. right. exact Z. Qed.
  Lemma uz_top_u j : uz_top P' pt' j = l * c * uz_top P pt j.
  Proof.
    unfold uz_top. cbv zeta. pj. rewrite zlev_u, rkappa_u. unfold tbar. rewrite !zm_u. change (phi P' j) with (phi P j). toR.
    replace (- (l * zlev P (s_kmax P - 1)) * rkappa P) with (- (l * (zlev P (s_kmax P - 1) * rkappa P))) by ring.
    replace (- zlev P (s_kmax P - 1) * rkappa P) with (- (zlev P (s_kmax P - 1) * rkappa P)) by ring. rewrite ratio_neg by assumption. un c l kt.
  Qed.
  Lemma sor_row_u n om s j : (2 <= j)%nat -> sor_row P' pv' pt' st' n om (pair_u s) j = pair_u (sor_row P pv pt stat n om s j).
  Proof.
    intros J. unfold sor_row. pj. rewrite (fold_pair (point P pv stat n om j) (point P' pv' st' n om j)) by (intros y x _; apply point_u, J).
    destruct (fold_left (point P pv stat n om j) (range 2 (s_kmax P - 1)) s) as [u a]. unfold pair_u at 1. cbn [fst snd]. cbv zeta. unfold pair_u. cbn [fst snd]. f_equal.
    rewrite <- set2_u. toR. f_equal.
    - rewrite <- set2_u. f_equal. ring.
    - rewrite uz_top_u. replace (set2 (scale2 (l * c) u) j 1 0) with (scale2 (l * c) (set2 u j 1 0)) by (rewrite <- set2_u; f_equal; ring). unfold scale2. ring.
  Qed.
  Lemma u_equator_u k : u_equator P' pv' uu' g1' g2' k = l * c * u_equator P pv uu g1 g2 k.
  Proof. unfold u_equator. rewrite cref_u, cbar_u. unfold ubar. rewrite zm_u. pj. toR. un c l kt. Qed.
  Lemma sweep_u n om u : sweep P' pv' uu' pt' st' g1' g2' n om (scale2 (l * c) u) = pair_u (sweep P pv uu pt stat g1 g2 n om u).
  Proof.
    unfold sweep. pj. toR. replace (scale2 (l * c) u, 0) with (pair_u (u, 0)) by (unfold pair_u; cbn [fst snd]; f_equal; ring).
    rewrite (fold_pair (sor_row P pv pt stat n om) (sor_row P' pv' pt' st' n om)) by (intros y x I; apply sor_row_u; unfold range in I; apply in_seq in I; lia).
    destruct (fold_left (sor_row P pv pt stat n om) (range 2 (s_jd P - 1)) (u, 0)) as [u1 a]. unfold pair_u. cbn [fst snd]. apply (f_equal2 (@pair (arr2 R) R)); [|reflexivity].
    extensionality j. extensionality k. unfold scale2. destruct (Nat.eqb j 1); [apply u_equator_u|]. destruct (Nat.eqb j _); [ring|reflexivity].
  Qed.
  Lemma iterate_u fuel n om u :
    iterate P' pv' uu' pt' st' g1' g2' fuel n om (scale2 (l * c) u)
    = (scale2 (l * c) (fst (iterate P pv uu pt stat g1 g2 fuel n om u)), snd (iterate P pv uu pt stat g1 g2 fuel n om u)).
  Proof.
    revert n om u. induction fuel as [|fuel IH]; intros n om u; cbn [iterate].
    - cbn [fst snd]. apply (f_equal2 (@pair (arr2 R) nat)); [|reflexivity]. extensionality j. extensionality k. unfold scale2. toR. ring.
    - rewrite sweep_u. destruct (sweep P pv uu pt stat g1 g2 n om u) as [u1 a]. unfold pair_u. cbn [fst snd]. rewrite anormf_u. pj. toR.
      replace (s_eps P * (l * c * anormf P pv)) with (l * c * (s_eps P * anormf P pv)) by ring. rewrite Rltb_pos by assumption.
      destruct (Nat.ltb 1 n && Rltb a (s_eps P * anormf P pv)); [reflexivity|]. change (next_omega P' n om) with (next_omega P n om). apply IH.
  Qed.
  Lemma solution_u : solution P' pv' uu' pt' st' g1' g2' = (scale2 (l * c) (fst (solution P pv uu pt stat g1 g2)), snd (solution P pv uu pt stat g1 g2)).
  Proof.
    unfold solution. pj. rewrite <- iterate_u. f_equal. extensionality j. extensionality k. unfold scale2. toR. ring.
  Qed.
  Lemma iterations_u : rs_num_of_iter P' pv' uu' pt' st' g1' g2' = rs_num_of_iter P pv uu pt stat g1 g2.
  Proof. unfold rs_num_of_iter. rewrite solution_u. reflexivity. Qed.
  Lemma uref1_u j k : uref1 P' pv' uu' pt' st' g1' g2' j k = l * c * uref1 P pv uu pt stat g1 g2 j k.
  Proof.
    unfold uref1. destruct (Nat.eqb j 1); [unfold ubar; apply zm_u|]. rewrite solution_u. cbn [fst]. change (phi P' j) with (phi P j). toR. unfold scale2, Rdiv. ring.
  Qed.
  Lemma rs_uref_u j k : rs_uref P' pv' uu' pt' st' g1' g2' j k = l * c * rs_uref P pv uu pt stat g1 g2 j k.
  Proof. unfold rs_uref. pj. rewrite !uref1_u. destruct (Nat.eqb _ _); toR; ring. Qed.
  Lemma ty_u k j : ty P' pv' uu' pt' st' g1' g2' k j = kt * ty P pv uu pt stat g1 g2 k j.
  Proof.
    unfold ty. rewrite !rs_uref_u, zlev_u, rkappa_u. pj. change (phi P' j) with (phi P j). toR.
    replace (rkappa P * (l * zlev P k)) with (l * (rkappa P * zlev P k)) by ring. rewrite ratio by assumption. un c l kt.
  Qed.
  Lemma tref0_u k j : tref0 P' pv' uu' pt' st' g1' g2' k j = kt * tref0 P pv uu pt stat g1 g2 k j.
  Proof.
    enough (H : tref0 P' pv' uu' pt' st' g1' g2' k j = kt * tref0 P pv uu pt stat g1 g2 k j /\ tref0 P' pv' uu' pt' st' g1' g2' k (S j) = kt * tref0 P pv uu pt stat g1 g2 k (S j)) by apply H.
    induction j as [|j [I1 I2]]; [split; cbn; toR; ring|]. split; [exact I2|]. destruct j as [|m]; [cbn; toR; ring|].
    change (tref0 P' pv' uu' pt' st' g1' g2' k (S m) + IZR 2 * ty P' pv' uu' pt' st' g1' g2' k (S (S m)) * s_dphi P = kt * (tref0 P pv uu pt stat g1 g2 k (S m) + IZR 2 * ty P pv uu pt stat g1 g2 k (S (S m)) * s_dphi P)).
    rewrite I1, ty_u. ring.
  Qed.
  Lemma rs_tref_u j k : rs_tref P' pv' uu' pt' st' g1' g2' j k = kt * rs_tref P pv uu pt stat g1 g2 j k.
  Proof.
    assert (G : forall k, tg P' pv' uu' pt' st' g1' g2' k = kt * tg P pv uu pt stat g1 g2 k).
    { intros k'. unfold tg. pj. change (phi P') with (phi P). toR. unfold Rdiv. rewrite <- Rmult_assoc. f_equal. apply loop_scal. intros i s. rewrite tref0_u. toR. ring. }
    assert (F : forall j k, tref1 P' pv' uu' pt' st' g1' g2' j k = kt * tref1 P pv uu pt stat g1 g2 j k) by (intros; unfold tref1; rewrite tref0_u, G, tb_u; toR; ring).
    unfold rs_tref. pj. rewrite !F, !tb_u. toR. destruct (Nat.eqb _ _); [ring|]. destruct (Nat.eqb _ _); ring.
  Qed.
End RefUnits.

Section DirUnits.
  Variables c l kt : R.
  Hypothesis Hc : 0 < c.
  Hypothesis Hl : 0 < l.
  Hypothesis Ht : 0 < kt.
  Let c0 : c <> 0. Proof. lra. Qed.
  Let l0 : l <> 0. Proof. lra. Qed.
  Let k0 : kt <> 0. Proof. lra. Qed.
  Variable P : rsdims R.
  Variable jb : nat.
  Notation P' := (rs_units c l kt P).
  Variables pv vort pt : arr3 R.
  Variable stat : nat -> R.
  Variable tbar0 : nat -> R.
  Variable inverse : nat -> arr2 R -> arr2 R.
  Notation pv' := (scale3 c pv).
  Notation vort' := (scale3 c vort).
  Notation st' := (scale1 (/ l * kt) stat).
  Notation pt' := (scale3 kt pt).
  Notation tb' := (scale1 kt tbar0).
  Ltac pj := cbn [rs_units s_nlon s_nlat s_kmax s_jd s_npart s_maxits s_a s_om s_dz s_eps s_h s_dphi s_dlambda s_r s_cp s_rjac].

  Lemma d_qref1_u j k : d_qref1 P' pv' j k = c * d_qref1 P pv j k.
  Proof. unfold d_qref1. rewrite (qref0_u c l kt Hc Hl Ht). change (phi P' j) with (phi P j). destruct (Nat.leb 2 j); toR; [unfold Rdiv; ring|reflexivity]. Qed.
  Lemma d_qref_u j k : d_qref P' pv' j k = c * d_qref P pv j k.
  Proof. unfold d_qref. rewrite !d_qref1_u. change (interior P' k) with (interior P k). destruct (_ && _); toR; ring. Qed.
  Lemma ckref_u j k : ckref P' vort' j k = l * l * c * ckref P vort j k.
  Proof.
    unfold ckref. change (interior P' k) with (interior P k). pj. destruct (interior P k && Nat.ltb j (s_jd P)); toR; [|ring].
    rewrite <- (at_row_u c l kt Hc Hl Ht P vort (l * l * c) k j (ccn P vort k) (ccn P' vort' k) 0) by (intros n; apply (ccn_u c l kt Hc)). f_equal. ring.
  Qed.
  Lemma t_top_u i : t_top P' jb pt' i = l * c * t_top P jb pt i.
  Proof.
    unfold t_top. cbv zeta. pj. rewrite (zlev_u c l kt), (rkappa_u c l kt Hc Hl Ht). rewrite !zm_u. set (ph := phi P (i + 1 + jb)). change (phi P' (i + 1 + jb)) with ph. toR.
    replace (- (l * zlev P (s_kmax P - 1)) * rkappa P) with (- (l * (zlev P (s_kmax P - 1) * rkappa P))) by ring.
    replace (- zlev P (s_kmax P - 1) * rkappa P) with (- (zlev P (s_kmax P - 1) * rkappa P)) by ring. rewrite ratio_neg by assumption. un c l kt.
  Qed.
  Lemma D_u : D P' = rs_units c l kt (D P).
  Proof. reflexivity. Qed.
  Lemma d_cjk_u j k : cjk (D P') st' j k = cjk (D P) stat j k.
  Proof. rewrite D_u. apply (cjk_u c l kt Hc Hl Ht). Qed.
  Lemma d_djk_u j k : djk (D P') st' j k = djk (D P) stat j k.
  Proof. rewrite D_u. apply (djk_u c l kt Hc Hl Ht). Qed.
  Lemma d_fjk_u i k : d_fjk P' jb pv' i k = l * c * d_fjk P jb pv i k.
  Proof. unfold d_fjk. rewrite !d_qref_u. change (DirInv.dp P') with (DirInv.dp P). pj. toR. ring. Qed.
  Lemma u_bound_u k : u_bound P' jb vort' k = l * c * u_bound P jb vort k.
  Proof. unfold u_bound. rewrite ckref_u. change (DirInv.dp P') with (DirInv.dp P). pj. toR. un c l kt. Qed.
  Lemma rj_u k i : rj P' jb pv' vort' k i = l * c * rj P jb pv vort k i.
  Proof.
    unfold rj. cbv zeta. rewrite d_fjk_u, u_bound_u. change (d_jd P' jb) with (d_jd P jb).
    change (ajk (D P') (row jb i)) with (ajk (D P) (row jb i)). change (bjk (D P') (row jb i)) with (bjk (D P) (row jb i)).
    destruct (Nat.eqb _ (d_jd P jb - 1)); toR; [ring|]. destruct (Nat.eqb _ _); ring.
  Qed.
  Lemma cjj_u : cjj P' jb st' = cjj P jb stat.
  Proof. extensionality k. extensionality i. extensionality m. unfold cjj. rewrite d_cjk_u. reflexivity. Qed.
  Lemma djj_u : djj P' jb st' = djj P jb stat.
  Proof. extensionality k. extensionality i. extensionality m. unfold djj. rewrite d_djk_u. reflexivity. Qed.
  Lemma qjj_u : qjj P' jb st' = qjj P jb stat.
  Proof.
    extensionality k. extensionality sj. extensionality i. extensionality m. unfold qjj. rewrite cjj_u. change (d_n P' jb) with (d_n P jb). f_equal.
    unfold qjj0, d_ejk. rewrite d_cjk_u, d_djk_u. reflexivity.
  Qed.
  Lemma d_inv_u : d_inv P' jb st' inverse = d_inv P jb stat inverse.
  Proof. extensionality k. extensionality sj. unfold d_inv. rewrite qjj_u. reflexivity. Qed.
  Lemma mat_vec_u q n (x : arr2 R) y i : mat_vec n x (scale1 q y) i = q * mat_vec n x y i.
  Proof. unfold mat_vec. apply loop_scal. intros j s. unfold scale1. toR. ring. Qed.
  Lemma down_u m : down P' jb pv' vort' pt' st' inverse m = (fst (down P jb pv vort pt stat inverse m), scale1 (l * c) (snd (down P jb pv vort pt stat inverse m))).
  Proof.
    induction m as [|m IH]; cbn [down].
    - cbn [fst snd]. apply (f_equal2 (@pair (arr2 R) (nat -> R))); [reflexivity|]. extensionality i. apply t_top_u.
    - rewrite IH. destruct (down P jb pv vort pt stat inverse m) as [sj tj]. cbn [fst snd]. cbv zeta. cbn [fst snd]. apply (f_equal2 (@pair (arr2 R) (nat -> R))).
      + unfold s_next. rewrite d_inv_u, djj_u. reflexivity.
      + extensionality i. unfold t_next. rewrite d_inv_u, cjj_u. change (d_n P' jb) with (d_n P jb). pj. unfold scale1 at 2. rewrite <- mat_vec_u. f_equal.
        extensionality i'. rewrite rj_u, mat_vec_u. unfold scale1. toR. ring.
  Qed.
  Lemma sjk_u k : sjk P' jb pv' vort' pt' st' inverse k = sjk P jb pv vort pt stat inverse k.
  Proof. unfold sjk. rewrite down_u. reflexivity. Qed.
  Lemma tjk_u k : tjk P' jb pv' vort' pt' st' inverse k = scale1 (l * c) (tjk P jb pv vort pt stat inverse k).
  Proof. unfold tjk. rewrite down_u. reflexivity. Qed.
  Lemma pjk_u k : pjk P' jb pv' vort' pt' st' inverse k = scale1 (l * c) (pjk P jb pv vort pt stat inverse k).
  Proof.
    induction k as [|k IH]; [extensionality i; unfold scale1; cbn [pjk]; toR; ring|]. destruct k as [|k]; [extensionality i; unfold scale1; cbn [pjk]; toR; ring|].
    extensionality i.
    change (mat_vec (d_n P jb) (sjk P' jb pv' vort' pt' st' inverse (S k)) (pjk P' jb pv' vort' pt' st' inverse (S k)) i + tjk P' jb pv' vort' pt' st' inverse (S k) i
      = l * c * (mat_vec (d_n P jb) (sjk P jb pv vort pt stat inverse (S k)) (pjk P jb pv vort pt stat inverse (S k)) i + tjk P jb pv vort pt stat inverse (S k) i)).
    rewrite IH, sjk_u, tjk_u, mat_vec_u. unfold scale1. ring.
  Qed.
  Lemma d_u0_u j k : d_u0 P' jb pv' vort' pt' st' inverse j k = l * c * d_u0 P jb pv vort pt stat inverse j k.
  Proof.
    unfold d_u0. change (d_jd P' jb) with (d_jd P jb). pj. rewrite pjk_u, ckref_u. change (DirInv.dp P') with (DirInv.dp P).
    destruct (Nat.leb 2 j && _); [reflexivity|]. destruct (_ && _); toR; [|ring]. un c l kt.
  Qed.
  Lemma d_u1_u j k : d_u1 P' jb pv' vort' pt' st' inverse j k = l * c * d_u1 P jb pv vort pt stat inverse j k.
  Proof. unfold d_u1. rewrite d_u0_u. change (d_jd P' jb) with (d_jd P jb). change (phi (D P') (j + jb)) with (phi (D P) (j + jb)). destruct (Nat.leb _ _); toR; [unfold Rdiv; ring|reflexivity]. Qed.
  Lemma d_uref_u j k : d_uref P' jb pv' vort' pt' st' inverse j k = l * c * d_uref P jb pv vort pt stat inverse j k.
  Proof. unfold d_uref. change (d_jd P' jb) with (d_jd P jb). rewrite !d_u1_u. destruct (Nat.eqb _ _); toR; ring. Qed.
  Lemma d_ty_u k j : d_ty P' jb pv' vort' pt' st' inverse k j = kt * d_ty P jb pv vort pt stat inverse k j.
  Proof.
    unfold d_ty. rewrite !d_uref_u, (zlev_u c l kt), (rkappa_u c l kt Hc Hl Ht). pj. change (phi (D P') (j + jb)) with (phi (D P) (j + jb)). toR.
    replace (rkappa P * (l * zlev P k)) with (l * (rkappa P * zlev P k)) by ring. rewrite ratio by assumption. un c l kt.
  Qed.
  Lemma d_tref0_u k j : d_tref0 P' jb pv' vort' pt' st' inverse k j = kt * d_tref0 P jb pv vort pt stat inverse k j.
  Proof.
    enough (H : d_tref0 P' jb pv' vort' pt' st' inverse k j = kt * d_tref0 P jb pv vort pt stat inverse k j /\ d_tref0 P' jb pv' vort' pt' st' inverse k (S j) = kt * d_tref0 P jb pv vort pt stat inverse k (S j)) by apply H.
    induction j as [|j [I1 I2]]; [split; cbn; toR; ring|]. split; [exact I2|]. destruct j as [|m]; [cbn; toR; ring|].
    change (d_tref0 P' jb pv' vort' pt' st' inverse k (S m) + IZR 2 * d_ty P' jb pv' vort' pt' st' inverse k (S (S m)) * DirInv.dp P
      = kt * (d_tref0 P jb pv vort pt stat inverse k (S m) + IZR 2 * d_ty P jb pv vort pt stat inverse k (S (S m)) * DirInv.dp P)).
    rewrite I1, d_ty_u. ring.
  Qed.
  Lemma d_tref_u j k : d_tref P' jb pv' vort' pt' st' tb' inverse j k = kt * d_tref P jb pv vort pt stat tbar0 inverse j k.
  Proof.
    assert (G : forall k, d_tg P' jb pv' vort' pt' st' inverse k = kt * d_tg P jb pv vort pt stat inverse k).
    { intros k'. unfold d_tg. change (d_jd P' jb) with (d_jd P jb). change (phi (D P')) with (phi (D P)). toR. unfold Rdiv. rewrite <- Rmult_assoc. f_equal. apply loop_scal. intros i s. rewrite d_tref0_u. toR. ring. }
    assert (F : forall j k, d_tref1 P' jb pv' vort' pt' st' tb' inverse j k = kt * d_tref1 P jb pv vort pt stat tbar0 inverse j k) by (intros; unfold d_tref1; rewrite d_tref0_u, G; unfold scale1; toR; ring).
    unfold d_tref. pj. rewrite !F. unfold scale1. toR. destruct (Nat.eqb _ _); [ring|]. destruct (Nat.eqb _ _); ring.
  Qed.
End DirUnits.
