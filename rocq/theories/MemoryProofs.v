(** The references of the routines are inside the arrays. *)
From Coq Require Import ZArith List String Lia Reals.
From Verif Require Import Memory FluxSpec FluxProofs RefStatesSpec RefStatesProofs.
Import ListNotations.
Local Open Scope nat_scope.

Lemma forall_doz (P : aref -> Prop) lo hi body :
  (forall n, lo <= n <= hi -> Forall P (body (Z.of_nat n))) -> Forall P (doz lo hi body).
Proof.
  intros H. apply Forall_forall. intros x Hx. unfold doz in Hx. apply in_do in Hx. destruct Hx as [n [Hn Hx]].
  exact (proj1 (Forall_forall P _) (H n Hn) x Hx).
Qed.

(** takes a list of references apart *)
Ltac leaf := unfold in_bounds; cbn [fst snd]; repeat constructor; lia.
Ltac refs := cbv zeta; cbn [map];
  repeat first [apply forall_doz; let n := fresh "n" in let H := fresh "Hn" in intros n H; cbv beta; cbv zeta
               |apply Forall_app; split | apply Forall_cons | apply Forall_nil]; try leaf.

Section Routines.
  Variables (nlon nlat kmax npart nd jb jd : nat).
  Hypotheses (Lon : 2 <= nlon) (Lev : 3 <= kmax) (Parts : 2 <= npart).
  Definition bins_fit (ind : Z -> Z -> Z -> Z) : Prop := forall k i j, 2 <= k <= kmax - 1 -> 1 <= i <= nlon -> 1 <= j <= nlat ->
    (1 <= ind (Z.of_nat k) (Z.of_nat i) (Z.of_nat j) <= Z.of_nat npart)%Z.

  Lemma vorticity_in : 3 <= nlat -> Forall in_bounds (vorticity_refs nlon nlat kmax).
  Proof. intros L. unfold vorticity_refs. refs. Qed.
  Opaque vorticity_refs.
  Lemma qgpv_in : 3 <= nlat -> Forall in_bounds (qgpv_refs nlon nlat kmax).
  Proof. intros L. unfold qgpv_refs. assert (V := vorticity_in L). unfold zonal_pv_refs. refs. exact V. Qed.
  Lemma qgpv_direct_inv_in : 3 <= nlat -> Forall in_bounds (qgpv_direct_inv_refs nlon nlat kmax).
  Proof. intros L. unfold qgpv_direct_inv_refs. assert (V := vorticity_in L). unfold zonal_pv_refs. refs. exact V. Qed.

  Lemma binning_in x2 (ind : Z -> Z -> Z) :
    (forall i j, 1 <= i <= nlon -> 1 <= j <= nlat -> (1 <= ind (Z.of_nat i) (Z.of_nat j) <= Z.of_nat npart)%Z) ->
    Forall in_bounds (binning_refs nlon nlat npart x2 ind).
  Proof. intros B. unfold binning_refs. refs; assert (X := B n0 n Hn0 Hn); leaf. Qed.
  Lemma search_in rows out (k : nat) : 1 <= k <= kmax -> Forall in_bounds (search_refs kmax npart rows out (Z.of_nat k)).
  Proof.
    intros K. unfold search_refs. refs. apply Forall_forall. intros x Hx. apply in_map_iff in Hx. destruct Hx as [o [<- _]]. leaf.
  Qed.
  Lemma zonal_means_in rows : 1 <= rows -> nlat = 2 * rows - 1 -> Forall in_bounds (zonal_means_refs nlon nlat kmax rows).
  Proof. intros Hr L. unfold zonal_means_refs. refs. Qed.
  Lemma level_copy_in x x2 (k : nat) : 1 <= k <= kmax -> Forall in_bounds (level_copy_refs nlon nlat kmax x x2 (Z.of_nat k)).
  Proof. intros K. unfold level_copy_refs. refs. Qed.
  Lemma cbar_in rows (k : nat) : 1 <= rows -> 1 <= k <= kmax -> Forall in_bounds (cbar_refs kmax rows (Z.of_nat k)).
  Proof. intros Hr K. unfold cbar_refs. refs. Qed.
  Lemma qref_edge_in rows : 3 <= rows -> Forall in_bounds (qref_edge_refs kmax rows).
  Proof. intros Hr. unfold qref_edge_refs. refs. Qed.
  Lemma pass_in : 3 <= jd -> Forall in_bounds (pass_refs kmax jd).
  Proof. intros Hj. unfold pass_refs. refs. Qed.

  Opaque binning_refs search_refs zonal_means_refs level_copy_refs cbar_refs qref_edge_refs pass_refs.
  Lemma reference_states_in ind : 3 <= jd -> nlat = 2 * jd - 1 -> bins_fit ind ->
    Forall in_bounds (reference_states_refs nlon nlat kmax npart jd ind).
  Proof.
    intros Hj L B. unfold reference_states_refs.
    refs; first [apply zonal_means_in; lia | apply level_copy_in; lia | apply binning_in; intros; apply B; lia | apply search_in; lia |
                 apply cbar_in; lia | apply qref_edge_in; lia | apply pass_in; lia | idtac].
  Qed.
  Lemma qref_and_fawa_first_in ind ind' : 3 <= nd -> jb < nd -> jd = nd - jb -> nlat = 2 * nd - 1 -> bins_fit ind -> bins_fit ind' ->
    Forall in_bounds (qref_and_fawa_first_refs nlon nlat kmax npart nd jb jd ind ind').
  Proof.
    intros Hn Hb Hj L B B'. unfold qref_and_fawa_first_refs.
    refs; first [apply zonal_means_in; lia | apply level_copy_in; lia | apply binning_in; intros; first [apply B; lia|apply B'; lia] | apply search_in; lia |
                 apply cbar_in; lia | apply qref_edge_in; lia | idtac].
  Qed.
  Lemma matrix_b4_in (k : nat) : jb < nd -> jd = nd - jb -> 2 <= k <= kmax - 1 -> Forall in_bounds (matrix_b4_refs kmax nd jb jd (Z.of_nat k)).
  Proof.
    intros Hb Hj K. unfold matrix_b4_refs.
    refs; match goal with |- context [if ?b then _ else _] => destruct b eqn:E end; try apply Forall_nil;
      apply andb_prop in E; destruct E as [E1 E2]; refs.
  Qed.
  Lemma matrix_after_in (k : nat) : 2 <= k <= kmax - 1 -> Forall in_bounds (matrix_after_refs kmax jd (Z.of_nat k)).
  Proof. intros K. unfold matrix_after_refs. refs. Qed.
  Lemma upward_sweep_in : jd = nd - jb -> 3 <= jd -> Forall in_bounds (upward_sweep_refs kmax nd jb jd).
  Proof. intros Hj H3. unfold upward_sweep_refs. refs. Qed.
  Lemma lwa_only_in : 1 <= nd -> nlat = 2 * nd - 1 -> Forall in_bounds (lwa_only_refs nlon nlat kmax nd jb).
  Proof. intros Hn L. unfold lwa_only_refs. refs. Qed.
End Routines.
