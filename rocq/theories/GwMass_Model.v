(** Mass and tidal parameter conversions of bilby/gw/conversion.py.
    Floats are reals; an operation that leaves the finite reals gives [None]
    (see PyReal.v).  Vectorisation over arrays is not modelled: each function
    acts on one sample. *)
From Coq Require Import Reals.
From Verif Require Import PyReal.
Open Scope R_scope.

(** conversion.py 866-868 *)
Definition total_mass_and_mass_ratio_to_component_masses (total_mass mass_ratio : R) : option (R * R) :=
  let* mass_1 := pdiv total_mass (1 + mass_ratio) in
  let mass_2 := mass_1 * mass_ratio in
  Some (mass_1, mass_2).

(** conversion.py 986-987 *)
Definition chirp_mass_and_mass_ratio_to_total_mass (chirp_mass mass_ratio : R) : option R :=
  let* a := ppow (1 + mass_ratio) (12/10) in
  let* b := ppow mass_ratio (6/10) in
  pdiv (chirp_mass * a) b.

(** conversion.py 889-895 *)
Definition chirp_mass_and_mass_ratio_to_component_masses (chirp_mass mass_ratio : R) : option (R * R) :=
  let* total_mass := chirp_mass_and_mass_ratio_to_total_mass chirp_mass mass_ratio in
  total_mass_and_mass_ratio_to_component_masses total_mass mass_ratio.

(** conversion.py 913-914: [temp = (1 / eta / 2 - 1); temp - (temp ** 2 - 1) ** 0.5] *)
Definition symmetric_mass_ratio_to_mass_ratio (symmetric_mass_ratio : R) : option R :=
  let* i := pdiv 1 symmetric_mass_ratio in
  let temp := i / 2 - 1 in
  let* s := psqrt (temp ^ 2 - 1) in
  Some (temp - s).

(** conversion.py 934 *)
Definition chirp_mass_and_total_mass_to_symmetric_mass_ratio (chirp_mass total_mass : R) : option R :=
  let* r := pdiv chirp_mass total_mass in ppow r (5/3).

(** conversion.py 960-964 *)
Definition chirp_mass_and_primary_mass_to_mass_ratio (chirp_mass mass_1 : R) : option R :=
  let* r := pdiv chirp_mass mass_1 in
  let a := r ^ 5 in
  let* s3 := psqrt 3 in
  let* sd := psqrt (27 * a ^ 2 - 4 * a ^ 3) in
  let t0 := cbrt (9 * a + s3 * sd) in
  let* c3 := ppow 3 (2/3) in
  let t1 := cbrt 2 * c3 in
  let t2 := cbrt (2/3) * a in
  let* x := pdiv t2 t0 in
  let* y := pdiv t0 t1 in
  Some (x + y).

(** conversion.py 1007 *)
Definition component_masses_to_chirp_mass (mass_1 mass_2 : R) : option R :=
  let* n := ppow (mass_1 * mass_2) (6/10) in
  let* d := ppow (mass_1 + mass_2) (2/10) in
  pdiv n d.

(** conversion.py 1027 *)
Definition component_masses_to_total_mass (mass_1 mass_2 : R) : option R :=
  Some (mass_1 + mass_2).

(** conversion.py 1047: [np.minimum(m1 * m2 / (m1 + m2) ** 2, 1 / 4)] *)
Definition component_masses_to_symmetric_mass_ratio (mass_1 mass_2 : R) : option R :=
  let* e := pdiv (mass_1 * mass_2) ((mass_1 + mass_2) ^ 2) in
  Some (Rmin e (1/4)).

(** conversion.py 1067 *)
Definition component_masses_to_mass_ratio (mass_1 mass_2 : R) : option R :=
  pdiv mass_2 mass_1.

(** conversion.py 1088-1093 *)
Definition mass_1_and_chirp_mass_to_mass_ratio (mass_1 chirp_mass : R) : option R :=
  let* r := pdiv chirp_mass mass_1 in
  let temp := r ^ 5 in
  let* s3 := psqrt 3 in
  let* sd := psqrt (27 * temp ^ 2 - 4 * temp ^ 3) in
  let w := s3 * sd + 9 * temp in
  let* x := pdiv (2 / 3) w in
  let* p := ppow x (1/3) in
  let* q := ppow (w / (2 * 3 ^ 2)) (1/3) in
  Some (p * temp + q).

(** conversion.py 1117 *)
Definition mass_2_and_chirp_mass_to_mass_ratio (mass_2 chirp_mass : R) : option R :=
  let* r := mass_1_and_chirp_mass_to_mass_ratio mass_2 chirp_mass in pdiv 1 r.

(** Tidal parameters. *)

(** conversion.py 1143-1150 *)
Definition lambda_1_lambda_2_to_lambda_tilde (lambda_1 lambda_2 mass_1 mass_2 : R) : option R :=
  let* eta := component_masses_to_symmetric_mass_ratio mass_1 mass_2 in
  let lambda_plus := lambda_1 + lambda_2 in
  let lambda_minus := lambda_1 - lambda_2 in
  let* s := psqrt (1 - 4 * eta) in
  Some (8 / 13 * ((1 + 7 * eta - 31 * eta ^ 2) * lambda_plus +
                  s * (1 + 9 * eta - 11 * eta ^ 2) * lambda_minus)).

(** conversion.py 1175-1182 *)
Definition lambda_1_lambda_2_to_delta_lambda_tilde (lambda_1 lambda_2 mass_1 mass_2 : R) : option R :=
  let* eta := component_masses_to_symmetric_mass_ratio mass_1 mass_2 in
  let lambda_plus := lambda_1 + lambda_2 in
  let lambda_minus := lambda_1 - lambda_2 in
  let* s := psqrt (1 - 4 * eta) in
  Some (1 / 2 * (s * (1 - 13272 / 1319 * eta + 8944 / 1319 * eta ^ 2) * lambda_plus +
                 (1 - 15910 / 1319 * eta + 32850 / 1319 * eta ^ 2 +
                  3380 / 1319 * eta ^ 3) * lambda_minus)).

(** conversion.py 1211-1229 *)
Definition lambda_tilde_delta_lambda_tilde_to_lambda_1_lambda_2
    (lambda_tilde delta_lambda_tilde mass_1 mass_2 : R) : option (R * R) :=
  let* eta := component_masses_to_symmetric_mass_ratio mass_1 mass_2 in
  let* s := psqrt (1 - 4 * eta) in
  let coefficient_1 := 1 + 7 * eta - 31 * eta ^ 2 in
  let coefficient_2 := s * (1 + 9 * eta - 11 * eta ^ 2) in
  let coefficient_3 := s * (1 - 13272 / 1319 * eta + 8944 / 1319 * eta ^ 2) in
  let coefficient_4 := 1 - 15910 / 1319 * eta + 32850 / 1319 * eta ^ 2 +
                       3380 / 1319 * eta ^ 3 in
  let* lambda_1 := pdiv (13 * lambda_tilde / 8 * (coefficient_3 - coefficient_4) -
                         2 * delta_lambda_tilde * (coefficient_1 - coefficient_2))
                        ((coefficient_1 + coefficient_2) * (coefficient_3 - coefficient_4) -
                         (coefficient_1 - coefficient_2) * (coefficient_3 + coefficient_4)) in
  let* lambda_2 := pdiv (13 * lambda_tilde / 8 * (coefficient_3 + coefficient_4) -
                         2 * delta_lambda_tilde * (coefficient_1 + coefficient_2))
                        ((coefficient_1 - coefficient_2) * (coefficient_3 + coefficient_4) -
                         (coefficient_1 + coefficient_2) * (coefficient_3 - coefficient_4)) in
  Some (lambda_1, lambda_2).

(** conversion.py 1256-1262; [q**-5] is [/ q ^ 5] *)
Definition lambda_tilde_to_lambda_1_lambda_2 (lambda_tilde mass_1 mass_2 : R) : option (R * R) :=
  let* eta := component_masses_to_symmetric_mass_ratio mass_1 mass_2 in
  let* q := pdiv mass_2 mass_1 in
  let* qm5 := pdiv 1 (q ^ 5) in
  let* s := psqrt (1 - 4 * eta) in
  let* lambda_1 := pdiv (13 / 8 * lambda_tilde)
                        ((1 + 7 * eta - 31 * eta ^ 2) * (1 + qm5) +
                         s * (1 + 9 * eta - 11 * eta ^ 2) * (1 - qm5)) in
  let* lambda_2 := pdiv lambda_1 (q ^ 5) in
  Some (lambda_1, lambda_2).

(** conversion.py 1283, 1305, 1327, 1349, 1373-1375 *)
Definition lambda_1_lambda_2_to_lambda_symmetric (lambda_1 lambda_2 : R) : R := (lambda_2 + lambda_1) / 2.
Definition lambda_1_lambda_2_to_lambda_antisymmetric (lambda_1 lambda_2 : R) : R := (lambda_2 - lambda_1) / 2.
Definition lambda_symmetric_lambda_antisymmetric_to_lambda_1 (ls la : R) : R := ls - la.
Definition lambda_symmetric_lambda_antisymmetric_to_lambda_2 (ls la : R) : R := ls + la.
Definition lambda_symmetric_lambda_antisymmetric_to_lambda_1_lambda_2 (ls la : R) : R * R :=
  (lambda_symmetric_lambda_antisymmetric_to_lambda_1 ls la,
   lambda_symmetric_lambda_antisymmetric_to_lambda_2 ls la).

(** conversion.py 605-609 (log10 pressures in cgs; minimum_pressure = 33.) *)
Definition log_pressure_reparameterization_conversion (scaled_pressure_ratio scaled_pressure_2 : R) : R * R :=
  let minimum_pressure := 33 in
  (scaled_pressure_ratio * scaled_pressure_2 + minimum_pressure,
   minimum_pressure + scaled_pressure_2).
