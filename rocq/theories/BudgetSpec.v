(** Specification vocabulary for budgets along a meridian and along a vertical column, on the tables of a session. *)
From Verif Require Export StateSpec.
Open Scope R_scope.

Section Budget.
  Variables (k : class) (w : qgargs) (lib : library) (t : tables).
  (** vertical mean of the eddy momentum flux over the inner levels, at a row of the grid *)
  Definition mean_momentum_flux (north : bool) (d i : nat) : R :=
    vertical_mean w (fun l => if Nat.leb (l + 2) (result_levels w) then flux_at w t north d l i else 0).
  (** density-weighted eddy heat flux over static stability, times cos(latitude) *)
  Definition eddy_heat (north : bool) (d l i : nat) : R :=
    exp (- result_height w l / w_H w) * (t_v t l (grid_row w north d) i * (t_theta t l (grid_row w north d) i - t_ptref t l (result_row w north d)) * weight w (grid_row w north d))
    / stability k w lib north d l.
  Definition coriolis (north : bool) (d : nat) : R := 2 * w_om w * sin (w_ylat w (grid_row w north d) * PI / 180).
  (** mass of the column in the vertical mean *)
  Definition column : R := thickness w * Sum 1 (result_levels w - 1) (fun l => exp (- (INR l * thickness w) / w_H w)).
  (** what leaves a column through its top *)
  Definition top_heat_flux (north : bool) (d i : nat) : R :=
    coriolis north d * (3 / 2 * eddy_heat north d (result_levels w - 1) i - / 2 * eddy_heat north d (result_levels w - 2) i) / column.
  (** the static stability at the two lowest levels is that of the mean potential temperature by differences *)
  Definition low_level_slopes (north : bool) : Prop :=
    t_slope k w lib north 0 = (t_mean k w lib north 1 - t_mean k w lib north 0) / thickness w /\
    t_slope k w lib north 1 = (t_mean k w lib north 2 - t_mean k w lib north 0) / (2 * thickness w).
End Budget.
