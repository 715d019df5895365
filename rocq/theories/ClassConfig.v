(** * The configuration handed to CLASS: [parse_external_power_spectrum]
    (src/parser.c:283-729, the part up to the call of [input_init]).

    CLASS is not part of the repository.  Its [parser_init] allocates [size]
    pairs of name and value without initialising them, and its [input_init]
    compares every one of the [size] names with the names it looks for. *)
From Coq Require Import ZArith Bool List String.
From Verif Require Import F64 PyParams.
Import ListNotations.
Open Scope string_scope.

(** A value as [sprintf] gets it: "%e" of a double, "%d" of an int, or a
    literal.  The digits that "%e" drops are not modelled.  What is passed to CLASS, parser.c:323-533. *)
Inductive cvalue := CE (x : f64) | CD (z : Z) | CS (s : string).

(** One slot of [fc->name], [fc->value]; [None] is uninitialised memory.
    What is passed to CLASS, parser.c:323-533. *)
Record slot := mkSlot { s_name : option string; s_value : option cvalue }.

(** [class_parameters_len], parser.c:313 *)
Definition class_parameters_len : nat := 35.

(** [EPSILON_ABS], parser.c:288 *)
Definition epsilon_abs : f64 := lit 1 10000000000.

(** [par->k_pivot], parser.c:755: never changed from Python. *)
Definition k_pivot : f64 := lit 5 100.

(** The entries in the order in which they are written, parser.c:322-532.
    [None] as the value: only the name is written (parser.c:520-532). *)
Definition class_entries (p : params) : list (string * option cvalue) :=
  [("h", Some (CE (pf p F_h)));
   ("T_cmb", Some (CE (pf p F_T_cmb)));
   ("Omega_b", Some (CE (pf p Omega0_baryon)));
   ("N_ur", Some (CE (pf p F_N_ur)))]
  ++ (if fltb epsilon_abs (fabs (pf p F_YHe)) then [("YHe", Some (CE (pf p F_YHe)))] else [])
  ++ [("Omega_cdm", Some (CE (pf p Omega0_cdm)));
      ("Omega_k", Some (CE (of_Z 0)));
      ("w0_fld", Some (CE (pf p F_w0)));
      ("wa_fld", Some (CE (pf p F_wa)));
      ("output", Some (CS "mPk"));
      ("gauge", Some (CS "synchronous"));
      ("P_k_ini type", Some (CS "analytic_Pk"));
      ("N_ncdm", Some (CD (pi p I_N_ncdm)));
      ("m_ncdm", Some (CE (pf p F_m_ncdm)));
      ("k_pivot", Some (CE k_pivot));
      ("n_s", Some (CE (pf p F_n_s)))]
  ++ (if fltb epsilon_abs (fabs (pf p F_A_s))
      then [("A_s", Some (CE (pf p F_A_s)))]
      else [("sigma8", Some (CE (pf p F_sigma8)))])
  ++ [("alpha_s", Some (CE (of_Z 0)));
      ("k_min_tau0", Some (CE (lit 2 1000)));
      ("P_k_max_h/Mpc", Some (CE (pf p F_k_max)));
      ("tau_reio", Some (CE (lit 925 10000)));
      ("k_per_decade_for_bao", Some (CE (pf p F_k_per_decade_for_bao)));
      ("k_per_decade_for_pk", Some (CE (pf p F_k_per_decade_for_pk)));
      ("start_large_k_at_tau_h_over_tau_k", Some (CE (pf p F_start_large_k_at_tau_h_over_tau_k)));
      ("l_max_g", Some (CD (pi p I_l_max_g)));
      ("l_max_ur", Some (CD (pi p I_l_max_ur)));
      ("tol_perturb_integration", Some (CE (pf p F_tol_perturb_integration)));
      ("radiation_streaming_trigger_tau_over_tau_k", Some (CE (pf p F_radiation_streaming_trigger)));
      ("ur_fluid_trigger_tau_over_tau_k", Some (CE (pf p F_ur_fluid_trigger)));
      ("z_pk", Some (CE (of_Z 0)));
      ("z_max_pk", Some (CE (of_Z 3)));
      ("non linear",
        if (pi p I_pk_type =? 2)%Z then Some (CS "halofit")
        else if (pi p I_pk_type =? 3)%Z then Some (CS "hmcode")
        else None)].

(** [mem[i] = v]; [None] when [i] is out of bounds.  What is passed to CLASS, parser.c:323-533. *)
Fixpoint store (mem : list slot) (i : nat) (v : slot) : option (list slot) :=
  match mem, i with
  | [], _ => None
  | _ :: t, O => Some (v :: t)
  | x :: t, S i => match store t i v with Some t => Some (x :: t) | None => None end
  end.

(** [sprintf(fc->name[counter], ...); sprintf(fc->value[counter], ...); ++counter]
    What is passed to CLASS, parser.c:323-533. *)
Fixpoint fill (mem : list slot) (counter : nat) (l : list (string * option cvalue))
    : option (list slot * nat) :=
  match l with
  | [] => Some (mem, counter)
  | (n, v) :: t =>
      match store mem counter (mkSlot (Some n) v) with
      | Some mem => fill mem (S counter) t
      | None => None
      end
  end.

(** The slots as [input_init] finds them, and how many were written.  What is passed to CLASS, parser.c:323-533. *)
Definition class_config (p : params) : option (list slot * nat) :=
  fill (repeat (mkSlot None None) class_parameters_len) 0 (class_entries p).
