(** Model of the comparison plots of plot_utils.py and of netcdf_utils.py. *)
From Verif Require Import Base Basis.
From Verif Require Export Grid.
Open Scope R_scope.

(** ** plot_utils.py *)
(** a panel: the field drawn and its 31 contour levels; None: chosen by matplotlib *)
Record panel := { pn_field : nat -> nat -> R; pn_levels : option (nat -> R) }.
(** matplotlib's contourf with given levels: "Contour levels must be increasing" unless all differences are positive.  Values outside
    the levels are left blank, those on the lowest level are coloured if they are the smallest of the field *)
Definition contourf (x : nat -> nat -> R) (levels : nat -> R) : res panel :=
  if forallb (fun k => Rltb (levels k) (levels (S k))) (seq 0 30) then Done {| pn_field := x; pn_levels := Some levels |} else Raise ValueError.
Definition contourf_auto (x : nat -> nat -> R) : res panel := Done {| pn_field := x; pn_levels := None |}.
(** all values of a field with [ny] rows and [nx] columns *)
Definition cells (ny nx : nat) (x : nat -> nat -> R) : list R := map (fun p => x (fst p) (snd p)) (list_prod (seq 0 ny) (seq 0 nx)).
(** plot_utils.py:59-60 and 143-144 *)
Definition plot_min (ny nx : nat) (a b : nat -> nat -> R) : R := lmin [lmin (cells ny nx a); lmin (cells ny nx b)].
Definition plot_max (ny nx : nat) (a b : nat -> nat -> R) : R := lmax [lmax (cells ny nx a); lmax (cells ny nx b)].
Definition abs_difference (a b : nat -> nat -> R) : nat -> nat -> R := fun j i => Rabs (a j i - b j i).
Definition difference_levels (ny nx : nat) (a b : nat -> nat -> R) (d : R) : nat -> R :=
  linspace 0 (d * lmax [Rabs (plot_min ny nx a b); Rabs (plot_max ny nx a b)]) 31.
Definition three (x y z : res panel) : res (panel * panel * panel) :=
  match x with Raise e => Raise e | Done p => match y with Raise e => Raise e | Done q => match z with Raise e => Raise e | Done r => Done (p, q, r) end end end.
(** compare_two_fields, plot_utils.py:97-164: [diff_factor] None or a number; 0 is false too.  Titles, files and sizes are left out *)
Definition compare_two_fields (ny nx : nat) (a b : nat -> nat -> R) (diff_factor : option R) : res (panel * panel * panel) :=
  let levels := linspace (plot_min ny nx a b) (plot_max ny nx a b) 31 in
  three (contourf a levels) (contourf b levels)
    (match diff_factor with
     | Some d => if Reqb d 0 then contourf_auto (abs_difference a b) else contourf (abs_difference a b) (difference_levels ny nx a b d)
     | None => contourf_auto (abs_difference a b)
     end).
(** compare_two_fields_on_map, plot_utils.py:13-78, and map_on_axis, 81-94: None * float raises TypeError *)
Definition compare_two_fields_on_map (ny nx : nat) (a b : nat -> nat -> R) (diff_factor : option R) : res (panel * panel * panel) :=
  let levels := linspace (plot_min ny nx a b) (plot_max ny nx a b) 31 in
  three (contourf a levels) (contourf b levels)
    (match diff_factor with Some d => contourf (abs_difference a b) (difference_levels ny nx a b d) | None => Raise TypeError end).

(** ** netcdf_utils.py *)
Section Slices.
  (** [T]: what a variable holds at one time, or a variable without the dimension time *)
  Context {T : Type}.
  Inductive content := Series (x : nat -> T) | Constant (x : T).
  (** a dataset: the length of the dimension time, if there is one, and the variables *)
  Record dataset := { ds_time : option nat; ds_vars : list (nat * content) }.
  (** position of an index of a dimension of length [n], negative ones from the end; None: IndexError *)
  Definition position (n : nat) (z : Z) : option nat :=
    if (0 <=? z)%Z && (z <? Z.of_nat n)%Z then Some (Z.to_nat z)
    else if (- Z.of_nat n <=? z)%Z && (z <? 0)%Z then Some (Z.to_nat (Z.of_nat n + z)) else None.
  Fixpoint positions (n : nat) (l : list Z) : option (list nat) :=
    match l with
    | [] => Some []
    | z :: r => match position n z with None => None | Some p => match positions n r with None => None | Some q => Some (p :: q) end end
    end.
  (** extract_one_timeslice, netcdf_utils.py:10-26: isel(time=timeslice) of all variables, written to another file.  ValueError
      without a dimension time.  Lazy loading and attributes are left out *)
  Definition extract_one_timeslice (d : dataset) (timeslice : list Z) : res dataset :=
    match ds_time d with
    | None => Raise ValueError
    | Some n =>
      match positions n timeslice with
      | None => Raise IndexError
      | Some l => Done {| ds_time := Some (length l);
                          ds_vars := map (fun v => (fst v, match snd v with Series x => Series (fun k => x (nth k l 0%nat)) | Constant x => Constant x end)) (ds_vars d) |}
      end
    end.
End Slices.
Arguments content : clear implicits.
Arguments dataset : clear implicits.
