(** * Boost serialization of the kep3 classes
    Each class has one serialize member listing fields; saving writes their values to the archive in order, loading
    assigns the values read in the same order to the members of the target object.  The archive is the list of written
    values (the binary encoding of one value is Boost's).  Reading a value of another type or past the end fails.
    Serialization of a heyoka integrator is taken to be exact. *)
From Coq Require Import ZArith List Bool String.
From Verif Require Import Outcome Float64 EpochModel LegModel HfModel StarkModel.
From Verif Require Import JplModel.
Import ListNotations.

Inductive aval := VD (d : double) | VZ (z : Z) | VS (s : string) | VB (b : bool) | VL (l : list double)
  | VZL (l : list Z) | VLL (l : list (list double)) | VT (a : ta).
Record field (O : Type) := mk_field { fget : O -> aval; fset : aval -> O -> option O }.
Arguments fget {O}. Arguments fset {O}. Arguments mk_field {O}.

(** ar & m_1; ar & m_2; ... for an output archive *)
Definition save {O} (fs : list (field O)) (o : O) : list aval := map (fun f => fget f o) fs.
(** ... and for an input archive *)
Fixpoint load {O} (fs : list (field O)) (ar : list aval) (o : O) : option (O * list aval) :=
  match fs with
  | [] => Some (o, ar)
  | f :: fs' => match ar with
      | [] => None
      | v :: ar' => match fset f v o with Some o' => load fs' ar' o' | None => None end
      end
  end.

(** include/kep3/epoch.hpp 235-253: save writes the count, load rebuilds the time point *)
Definition f_m_tp : field epoch := mk_field (fun o => VZ (epoch_save o)) (fun v o => match v with VZ x => Some (epoch_load x) | _ => None end).
Definition epoch_serialize : list (field epoch) := [f_m_tp].

(** members, include/kep3/udpla/keplerian.hpp 29-55 (m_safe_radius is written twice) *)
Record kep := mk_kep { kp_ref : Z; kp_name : string; kp_mu : double; kp_mu_self : double; kp_radius : double; kp_safe : double; kp_period : double; kp_ellipse : bool; kp_posvel : list double; kp_elem : list double }.

(** include/kep3/udpla/keplerian.hpp 29-55 (m_safe_radius is written twice) *)
Definition f_kp_ref : field kep := mk_field (fun o => VZ (kp_ref o)) (fun v o => match v with VZ x => Some (mk_kep x (kp_name o) (kp_mu o) (kp_mu_self o) (kp_radius o) (kp_safe o) (kp_period o) (kp_ellipse o) (kp_posvel o) (kp_elem o)) | _ => None end).
Definition f_kp_name : field kep := mk_field (fun o => VS (kp_name o)) (fun v o => match v with VS x => Some (mk_kep (kp_ref o) x (kp_mu o) (kp_mu_self o) (kp_radius o) (kp_safe o) (kp_period o) (kp_ellipse o) (kp_posvel o) (kp_elem o)) | _ => None end).
Definition f_kp_mu : field kep := mk_field (fun o => VD (kp_mu o)) (fun v o => match v with VD x => Some (mk_kep (kp_ref o) (kp_name o) x (kp_mu_self o) (kp_radius o) (kp_safe o) (kp_period o) (kp_ellipse o) (kp_posvel o) (kp_elem o)) | _ => None end).
Definition f_kp_mu_self : field kep := mk_field (fun o => VD (kp_mu_self o)) (fun v o => match v with VD x => Some (mk_kep (kp_ref o) (kp_name o) (kp_mu o) x (kp_radius o) (kp_safe o) (kp_period o) (kp_ellipse o) (kp_posvel o) (kp_elem o)) | _ => None end).
Definition f_kp_radius : field kep := mk_field (fun o => VD (kp_radius o)) (fun v o => match v with VD x => Some (mk_kep (kp_ref o) (kp_name o) (kp_mu o) (kp_mu_self o) x (kp_safe o) (kp_period o) (kp_ellipse o) (kp_posvel o) (kp_elem o)) | _ => None end).
Definition f_kp_safe : field kep := mk_field (fun o => VD (kp_safe o)) (fun v o => match v with VD x => Some (mk_kep (kp_ref o) (kp_name o) (kp_mu o) (kp_mu_self o) (kp_radius o) x (kp_period o) (kp_ellipse o) (kp_posvel o) (kp_elem o)) | _ => None end).
Definition f_kp_period : field kep := mk_field (fun o => VD (kp_period o)) (fun v o => match v with VD x => Some (mk_kep (kp_ref o) (kp_name o) (kp_mu o) (kp_mu_self o) (kp_radius o) (kp_safe o) x (kp_ellipse o) (kp_posvel o) (kp_elem o)) | _ => None end).
Definition f_kp_ellipse : field kep := mk_field (fun o => VB (kp_ellipse o)) (fun v o => match v with VB x => Some (mk_kep (kp_ref o) (kp_name o) (kp_mu o) (kp_mu_self o) (kp_radius o) (kp_safe o) (kp_period o) x (kp_posvel o) (kp_elem o)) | _ => None end).
Definition f_kp_posvel : field kep := mk_field (fun o => VL (kp_posvel o)) (fun v o => match v with VL x => Some (mk_kep (kp_ref o) (kp_name o) (kp_mu o) (kp_mu_self o) (kp_radius o) (kp_safe o) (kp_period o) (kp_ellipse o) x (kp_elem o)) | _ => None end).
Definition f_kp_elem : field kep := mk_field (fun o => VL (kp_elem o)) (fun v o => match v with VL x => Some (mk_kep (kp_ref o) (kp_name o) (kp_mu o) (kp_mu_self o) (kp_radius o) (kp_safe o) (kp_period o) (kp_ellipse o) (kp_posvel o) x) | _ => None end).
Definition kep_serialize : list (field kep) := [f_kp_ref; f_kp_name; f_kp_mu; f_kp_mu_self; f_kp_radius; f_kp_safe; f_kp_period; f_kp_ellipse; f_kp_safe; f_kp_posvel; f_kp_elem].

(** include/kep3/udpla/jpl_lp.hpp 37-56 *)
Definition f_j_el : field jpl := mk_field (fun o => VL (j_el o)) (fun v o => match v with VL x => Some (mk_jpl x (j_eldot o) (j_name o) (j_mu o) (j_mu_self o) (j_radius o) (j_safe o)) | _ => None end).
Definition f_j_eldot : field jpl := mk_field (fun o => VL (j_eldot o)) (fun v o => match v with VL x => Some (mk_jpl (j_el o) x (j_name o) (j_mu o) (j_mu_self o) (j_radius o) (j_safe o)) | _ => None end).
Definition f_j_name : field jpl := mk_field (fun o => VS (j_name o)) (fun v o => match v with VS x => Some (mk_jpl (j_el o) (j_eldot o) x (j_mu o) (j_mu_self o) (j_radius o) (j_safe o)) | _ => None end).
Definition f_j_mu : field jpl := mk_field (fun o => VD (j_mu o)) (fun v o => match v with VD x => Some (mk_jpl (j_el o) (j_eldot o) (j_name o) x (j_mu_self o) (j_radius o) (j_safe o)) | _ => None end).
Definition f_j_mu_self : field jpl := mk_field (fun o => VD (j_mu_self o)) (fun v o => match v with VD x => Some (mk_jpl (j_el o) (j_eldot o) (j_name o) (j_mu o) x (j_radius o) (j_safe o)) | _ => None end).
Definition f_j_radius : field jpl := mk_field (fun o => VD (j_radius o)) (fun v o => match v with VD x => Some (mk_jpl (j_el o) (j_eldot o) (j_name o) (j_mu o) (j_mu_self o) x (j_safe o)) | _ => None end).
Definition f_j_safe : field jpl := mk_field (fun o => VD (j_safe o)) (fun v o => match v with VD x => Some (mk_jpl (j_el o) (j_eldot o) (j_name o) (j_mu o) (j_mu_self o) (j_radius o) x) | _ => None end).
Definition jpl_serialize : list (field jpl) := [f_j_el; f_j_eldot; f_j_name; f_j_mu; f_j_mu_self; f_j_radius; f_j_safe].

(** members, include/kep3/lambert_problem.hpp 75-104 (m_iters is written twice) *)
Record lam := mk_lam { lb_r0 : list double; lb_r1 : list double; lb_tof : double; lb_mu : double; lb_v0 : list (list double); lb_v1 : list (list double); lb_iters : list Z; lb_x : list double; lb_s : double; lb_c : double; lb_lambda : double; lb_Nmax : Z; lb_conv : bool; lb_revs : Z }.

(** include/kep3/lambert_problem.hpp 75-104 (m_iters is written twice) *)
Definition f_lb_r0 : field lam := mk_field (fun o => VL (lb_r0 o)) (fun v o => match v with VL x => Some (mk_lam x (lb_r1 o) (lb_tof o) (lb_mu o) (lb_v0 o) (lb_v1 o) (lb_iters o) (lb_x o) (lb_s o) (lb_c o) (lb_lambda o) (lb_Nmax o) (lb_conv o) (lb_revs o)) | _ => None end).
Definition f_lb_r1 : field lam := mk_field (fun o => VL (lb_r1 o)) (fun v o => match v with VL x => Some (mk_lam (lb_r0 o) x (lb_tof o) (lb_mu o) (lb_v0 o) (lb_v1 o) (lb_iters o) (lb_x o) (lb_s o) (lb_c o) (lb_lambda o) (lb_Nmax o) (lb_conv o) (lb_revs o)) | _ => None end).
Definition f_lb_tof : field lam := mk_field (fun o => VD (lb_tof o)) (fun v o => match v with VD x => Some (mk_lam (lb_r0 o) (lb_r1 o) x (lb_mu o) (lb_v0 o) (lb_v1 o) (lb_iters o) (lb_x o) (lb_s o) (lb_c o) (lb_lambda o) (lb_Nmax o) (lb_conv o) (lb_revs o)) | _ => None end).
Definition f_lb_mu : field lam := mk_field (fun o => VD (lb_mu o)) (fun v o => match v with VD x => Some (mk_lam (lb_r0 o) (lb_r1 o) (lb_tof o) x (lb_v0 o) (lb_v1 o) (lb_iters o) (lb_x o) (lb_s o) (lb_c o) (lb_lambda o) (lb_Nmax o) (lb_conv o) (lb_revs o)) | _ => None end).
Definition f_lb_v0 : field lam := mk_field (fun o => VLL (lb_v0 o)) (fun v o => match v with VLL x => Some (mk_lam (lb_r0 o) (lb_r1 o) (lb_tof o) (lb_mu o) x (lb_v1 o) (lb_iters o) (lb_x o) (lb_s o) (lb_c o) (lb_lambda o) (lb_Nmax o) (lb_conv o) (lb_revs o)) | _ => None end).
Definition f_lb_v1 : field lam := mk_field (fun o => VLL (lb_v1 o)) (fun v o => match v with VLL x => Some (mk_lam (lb_r0 o) (lb_r1 o) (lb_tof o) (lb_mu o) (lb_v0 o) x (lb_iters o) (lb_x o) (lb_s o) (lb_c o) (lb_lambda o) (lb_Nmax o) (lb_conv o) (lb_revs o)) | _ => None end).
Definition f_lb_iters : field lam := mk_field (fun o => VZL (lb_iters o)) (fun v o => match v with VZL x => Some (mk_lam (lb_r0 o) (lb_r1 o) (lb_tof o) (lb_mu o) (lb_v0 o) (lb_v1 o) x (lb_x o) (lb_s o) (lb_c o) (lb_lambda o) (lb_Nmax o) (lb_conv o) (lb_revs o)) | _ => None end).
Definition f_lb_x : field lam := mk_field (fun o => VL (lb_x o)) (fun v o => match v with VL x => Some (mk_lam (lb_r0 o) (lb_r1 o) (lb_tof o) (lb_mu o) (lb_v0 o) (lb_v1 o) (lb_iters o) x (lb_s o) (lb_c o) (lb_lambda o) (lb_Nmax o) (lb_conv o) (lb_revs o)) | _ => None end).
Definition f_lb_s : field lam := mk_field (fun o => VD (lb_s o)) (fun v o => match v with VD x => Some (mk_lam (lb_r0 o) (lb_r1 o) (lb_tof o) (lb_mu o) (lb_v0 o) (lb_v1 o) (lb_iters o) (lb_x o) x (lb_c o) (lb_lambda o) (lb_Nmax o) (lb_conv o) (lb_revs o)) | _ => None end).
Definition f_lb_c : field lam := mk_field (fun o => VD (lb_c o)) (fun v o => match v with VD x => Some (mk_lam (lb_r0 o) (lb_r1 o) (lb_tof o) (lb_mu o) (lb_v0 o) (lb_v1 o) (lb_iters o) (lb_x o) (lb_s o) x (lb_lambda o) (lb_Nmax o) (lb_conv o) (lb_revs o)) | _ => None end).
Definition f_lb_lambda : field lam := mk_field (fun o => VD (lb_lambda o)) (fun v o => match v with VD x => Some (mk_lam (lb_r0 o) (lb_r1 o) (lb_tof o) (lb_mu o) (lb_v0 o) (lb_v1 o) (lb_iters o) (lb_x o) (lb_s o) (lb_c o) x (lb_Nmax o) (lb_conv o) (lb_revs o)) | _ => None end).
Definition f_lb_Nmax : field lam := mk_field (fun o => VZ (lb_Nmax o)) (fun v o => match v with VZ x => Some (mk_lam (lb_r0 o) (lb_r1 o) (lb_tof o) (lb_mu o) (lb_v0 o) (lb_v1 o) (lb_iters o) (lb_x o) (lb_s o) (lb_c o) (lb_lambda o) x (lb_conv o) (lb_revs o)) | _ => None end).
Definition f_lb_conv : field lam := mk_field (fun o => VB (lb_conv o)) (fun v o => match v with VB x => Some (mk_lam (lb_r0 o) (lb_r1 o) (lb_tof o) (lb_mu o) (lb_v0 o) (lb_v1 o) (lb_iters o) (lb_x o) (lb_s o) (lb_c o) (lb_lambda o) (lb_Nmax o) x (lb_revs o)) | _ => None end).
Definition f_lb_revs : field lam := mk_field (fun o => VZ (lb_revs o)) (fun v o => match v with VZ x => Some (mk_lam (lb_r0 o) (lb_r1 o) (lb_tof o) (lb_mu o) (lb_v0 o) (lb_v1 o) (lb_iters o) (lb_x o) (lb_s o) (lb_c o) (lb_lambda o) (lb_Nmax o) (lb_conv o) x) | _ => None end).
Definition lam_serialize : list (field lam) := [f_lb_r0; f_lb_r1; f_lb_tof; f_lb_mu; f_lb_v0; f_lb_v1; f_lb_iters; f_lb_x; f_lb_s; f_lb_c; f_lb_lambda; f_lb_iters; f_lb_Nmax; f_lb_conv; f_lb_revs].

(** include/kep3/stark_problem.hpp 55-69 *)
Definition f_sk_mu : field stark := mk_field (fun o => VD (sk_mu o)) (fun v o => match v with VD x => Some (mk_stark x (sk_veff o) (sk_tol o) (sk_ta o) (sk_tav o) (sk_ic o)) | _ => None end).
Definition f_sk_veff : field stark := mk_field (fun o => VD (sk_veff o)) (fun v o => match v with VD x => Some (mk_stark (sk_mu o) x (sk_tol o) (sk_ta o) (sk_tav o) (sk_ic o)) | _ => None end).
Definition f_sk_tol : field stark := mk_field (fun o => VD (sk_tol o)) (fun v o => match v with VD x => Some (mk_stark (sk_mu o) (sk_veff o) x (sk_ta o) (sk_tav o) (sk_ic o)) | _ => None end).
Definition f_sk_ta : field stark := mk_field (fun o => VT (sk_ta o)) (fun v o => match v with VT x => Some (mk_stark (sk_mu o) (sk_veff o) (sk_tol o) x (sk_tav o) (sk_ic o)) | _ => None end).
Definition f_sk_tav : field stark := mk_field (fun o => VT (sk_tav o)) (fun v o => match v with VT x => Some (mk_stark (sk_mu o) (sk_veff o) (sk_tol o) (sk_ta o) x (sk_ic o)) | _ => None end).
Definition f_sk_ic : field stark := mk_field (fun o => VL (sk_ic o)) (fun v o => match v with VL x => Some (mk_stark (sk_mu o) (sk_veff o) (sk_tol o) (sk_ta o) (sk_tav o) x) | _ => None end).
Definition stark_serialize : list (field stark) := [f_sk_mu; f_sk_veff; f_sk_tol; f_sk_ta; f_sk_tav; f_sk_ic].

(** include/kep3/leg/sims_flanagan.hpp 104-142 *)
Definition f_sf_rvs : field sfleg := mk_field (fun o => VL (sf_rvs o)) (fun v o => match v with VL x => Some (mk_sf x (sf_ms o) (sf_thr o) (sf_rvf o) (sf_mf o) (sf_tof o) (sf_T o) (sf_isp o) (sf_mu o) (sf_cut o) (sf_n o) (sf_nf o) (sf_nb o)) | _ => None end).
Definition f_sf_ms : field sfleg := mk_field (fun o => VD (sf_ms o)) (fun v o => match v with VD x => Some (mk_sf (sf_rvs o) x (sf_thr o) (sf_rvf o) (sf_mf o) (sf_tof o) (sf_T o) (sf_isp o) (sf_mu o) (sf_cut o) (sf_n o) (sf_nf o) (sf_nb o)) | _ => None end).
Definition f_sf_thr : field sfleg := mk_field (fun o => VL (sf_thr o)) (fun v o => match v with VL x => Some (mk_sf (sf_rvs o) (sf_ms o) x (sf_rvf o) (sf_mf o) (sf_tof o) (sf_T o) (sf_isp o) (sf_mu o) (sf_cut o) (sf_n o) (sf_nf o) (sf_nb o)) | _ => None end).
Definition f_sf_rvf : field sfleg := mk_field (fun o => VL (sf_rvf o)) (fun v o => match v with VL x => Some (mk_sf (sf_rvs o) (sf_ms o) (sf_thr o) x (sf_mf o) (sf_tof o) (sf_T o) (sf_isp o) (sf_mu o) (sf_cut o) (sf_n o) (sf_nf o) (sf_nb o)) | _ => None end).
Definition f_sf_mf : field sfleg := mk_field (fun o => VD (sf_mf o)) (fun v o => match v with VD x => Some (mk_sf (sf_rvs o) (sf_ms o) (sf_thr o) (sf_rvf o) x (sf_tof o) (sf_T o) (sf_isp o) (sf_mu o) (sf_cut o) (sf_n o) (sf_nf o) (sf_nb o)) | _ => None end).
Definition f_sf_tof : field sfleg := mk_field (fun o => VD (sf_tof o)) (fun v o => match v with VD x => Some (mk_sf (sf_rvs o) (sf_ms o) (sf_thr o) (sf_rvf o) (sf_mf o) x (sf_T o) (sf_isp o) (sf_mu o) (sf_cut o) (sf_n o) (sf_nf o) (sf_nb o)) | _ => None end).
Definition f_sf_T : field sfleg := mk_field (fun o => VD (sf_T o)) (fun v o => match v with VD x => Some (mk_sf (sf_rvs o) (sf_ms o) (sf_thr o) (sf_rvf o) (sf_mf o) (sf_tof o) x (sf_isp o) (sf_mu o) (sf_cut o) (sf_n o) (sf_nf o) (sf_nb o)) | _ => None end).
Definition f_sf_isp : field sfleg := mk_field (fun o => VD (sf_isp o)) (fun v o => match v with VD x => Some (mk_sf (sf_rvs o) (sf_ms o) (sf_thr o) (sf_rvf o) (sf_mf o) (sf_tof o) (sf_T o) x (sf_mu o) (sf_cut o) (sf_n o) (sf_nf o) (sf_nb o)) | _ => None end).
Definition f_sf_mu : field sfleg := mk_field (fun o => VD (sf_mu o)) (fun v o => match v with VD x => Some (mk_sf (sf_rvs o) (sf_ms o) (sf_thr o) (sf_rvf o) (sf_mf o) (sf_tof o) (sf_T o) (sf_isp o) x (sf_cut o) (sf_n o) (sf_nf o) (sf_nb o)) | _ => None end).
Definition f_sf_cut : field sfleg := mk_field (fun o => VD (sf_cut o)) (fun v o => match v with VD x => Some (mk_sf (sf_rvs o) (sf_ms o) (sf_thr o) (sf_rvf o) (sf_mf o) (sf_tof o) (sf_T o) (sf_isp o) (sf_mu o) x (sf_n o) (sf_nf o) (sf_nb o)) | _ => None end).
Definition f_sf_n : field sfleg := mk_field (fun o => VZ (sf_n o)) (fun v o => match v with VZ x => Some (mk_sf (sf_rvs o) (sf_ms o) (sf_thr o) (sf_rvf o) (sf_mf o) (sf_tof o) (sf_T o) (sf_isp o) (sf_mu o) (sf_cut o) x (sf_nf o) (sf_nb o)) | _ => None end).
Definition f_sf_nf : field sfleg := mk_field (fun o => VZ (sf_nf o)) (fun v o => match v with VZ x => Some (mk_sf (sf_rvs o) (sf_ms o) (sf_thr o) (sf_rvf o) (sf_mf o) (sf_tof o) (sf_T o) (sf_isp o) (sf_mu o) (sf_cut o) (sf_n o) x (sf_nb o)) | _ => None end).
Definition f_sf_nb : field sfleg := mk_field (fun o => VZ (sf_nb o)) (fun v o => match v with VZ x => Some (mk_sf (sf_rvs o) (sf_ms o) (sf_thr o) (sf_rvf o) (sf_mf o) (sf_tof o) (sf_T o) (sf_isp o) (sf_mu o) (sf_cut o) (sf_n o) (sf_nf o) x) | _ => None end).
Definition sfl_serialize : list (field sfleg) := [f_sf_rvs; f_sf_ms; f_sf_thr; f_sf_tof; f_sf_rvf; f_sf_mf; f_sf_T; f_sf_isp; f_sf_mu; f_sf_cut; f_sf_n; f_sf_nf; f_sf_nb].

(** include/kep3/leg/sims_flanagan_hf.hpp 138-188 (m_tas_var is not written) *)
Definition f_hf_rvms : field hfleg := mk_field (fun o => VL (hf_rvms o)) (fun v o => match v with VL x => Some (mk_hf x (hf_vars o) (hf_thr o) (hf_thrusts o) (hf_rvmf o) (hf_tof o) (hf_T o) (hf_isp o) (hf_mu o) (hf_cut o) (hf_tol o) (hf_n o) (hf_nf o) (hf_nb o) (hf_tas o) (hf_tasv o)) | _ => None end).
Definition f_hf_vars : field hfleg := mk_field (fun o => VL (hf_vars o)) (fun v o => match v with VL x => Some (mk_hf (hf_rvms o) x (hf_thr o) (hf_thrusts o) (hf_rvmf o) (hf_tof o) (hf_T o) (hf_isp o) (hf_mu o) (hf_cut o) (hf_tol o) (hf_n o) (hf_nf o) (hf_nb o) (hf_tas o) (hf_tasv o)) | _ => None end).
Definition f_hf_thr : field hfleg := mk_field (fun o => VL (hf_thr o)) (fun v o => match v with VL x => Some (mk_hf (hf_rvms o) (hf_vars o) x (hf_thrusts o) (hf_rvmf o) (hf_tof o) (hf_T o) (hf_isp o) (hf_mu o) (hf_cut o) (hf_tol o) (hf_n o) (hf_nf o) (hf_nb o) (hf_tas o) (hf_tasv o)) | _ => None end).
Definition f_hf_thrusts : field hfleg := mk_field (fun o => VL (hf_thrusts o)) (fun v o => match v with VL x => Some (mk_hf (hf_rvms o) (hf_vars o) (hf_thr o) x (hf_rvmf o) (hf_tof o) (hf_T o) (hf_isp o) (hf_mu o) (hf_cut o) (hf_tol o) (hf_n o) (hf_nf o) (hf_nb o) (hf_tas o) (hf_tasv o)) | _ => None end).
Definition f_hf_rvmf : field hfleg := mk_field (fun o => VL (hf_rvmf o)) (fun v o => match v with VL x => Some (mk_hf (hf_rvms o) (hf_vars o) (hf_thr o) (hf_thrusts o) x (hf_tof o) (hf_T o) (hf_isp o) (hf_mu o) (hf_cut o) (hf_tol o) (hf_n o) (hf_nf o) (hf_nb o) (hf_tas o) (hf_tasv o)) | _ => None end).
Definition f_hf_tof : field hfleg := mk_field (fun o => VD (hf_tof o)) (fun v o => match v with VD x => Some (mk_hf (hf_rvms o) (hf_vars o) (hf_thr o) (hf_thrusts o) (hf_rvmf o) x (hf_T o) (hf_isp o) (hf_mu o) (hf_cut o) (hf_tol o) (hf_n o) (hf_nf o) (hf_nb o) (hf_tas o) (hf_tasv o)) | _ => None end).
Definition f_hf_T : field hfleg := mk_field (fun o => VD (hf_T o)) (fun v o => match v with VD x => Some (mk_hf (hf_rvms o) (hf_vars o) (hf_thr o) (hf_thrusts o) (hf_rvmf o) (hf_tof o) x (hf_isp o) (hf_mu o) (hf_cut o) (hf_tol o) (hf_n o) (hf_nf o) (hf_nb o) (hf_tas o) (hf_tasv o)) | _ => None end).
Definition f_hf_isp : field hfleg := mk_field (fun o => VD (hf_isp o)) (fun v o => match v with VD x => Some (mk_hf (hf_rvms o) (hf_vars o) (hf_thr o) (hf_thrusts o) (hf_rvmf o) (hf_tof o) (hf_T o) x (hf_mu o) (hf_cut o) (hf_tol o) (hf_n o) (hf_nf o) (hf_nb o) (hf_tas o) (hf_tasv o)) | _ => None end).
Definition f_hf_mu : field hfleg := mk_field (fun o => VD (hf_mu o)) (fun v o => match v with VD x => Some (mk_hf (hf_rvms o) (hf_vars o) (hf_thr o) (hf_thrusts o) (hf_rvmf o) (hf_tof o) (hf_T o) (hf_isp o) x (hf_cut o) (hf_tol o) (hf_n o) (hf_nf o) (hf_nb o) (hf_tas o) (hf_tasv o)) | _ => None end).
Definition f_hf_cut : field hfleg := mk_field (fun o => VD (hf_cut o)) (fun v o => match v with VD x => Some (mk_hf (hf_rvms o) (hf_vars o) (hf_thr o) (hf_thrusts o) (hf_rvmf o) (hf_tof o) (hf_T o) (hf_isp o) (hf_mu o) x (hf_tol o) (hf_n o) (hf_nf o) (hf_nb o) (hf_tas o) (hf_tasv o)) | _ => None end).
Definition f_hf_tol : field hfleg := mk_field (fun o => VD (hf_tol o)) (fun v o => match v with VD x => Some (mk_hf (hf_rvms o) (hf_vars o) (hf_thr o) (hf_thrusts o) (hf_rvmf o) (hf_tof o) (hf_T o) (hf_isp o) (hf_mu o) (hf_cut o) x (hf_n o) (hf_nf o) (hf_nb o) (hf_tas o) (hf_tasv o)) | _ => None end).
Definition f_hf_n : field hfleg := mk_field (fun o => VZ (hf_n o)) (fun v o => match v with VZ x => Some (mk_hf (hf_rvms o) (hf_vars o) (hf_thr o) (hf_thrusts o) (hf_rvmf o) (hf_tof o) (hf_T o) (hf_isp o) (hf_mu o) (hf_cut o) (hf_tol o) x (hf_nf o) (hf_nb o) (hf_tas o) (hf_tasv o)) | _ => None end).
Definition f_hf_nf : field hfleg := mk_field (fun o => VZ (hf_nf o)) (fun v o => match v with VZ x => Some (mk_hf (hf_rvms o) (hf_vars o) (hf_thr o) (hf_thrusts o) (hf_rvmf o) (hf_tof o) (hf_T o) (hf_isp o) (hf_mu o) (hf_cut o) (hf_tol o) (hf_n o) x (hf_nb o) (hf_tas o) (hf_tasv o)) | _ => None end).
Definition f_hf_nb : field hfleg := mk_field (fun o => VZ (hf_nb o)) (fun v o => match v with VZ x => Some (mk_hf (hf_rvms o) (hf_vars o) (hf_thr o) (hf_thrusts o) (hf_rvmf o) (hf_tof o) (hf_T o) (hf_isp o) (hf_mu o) (hf_cut o) (hf_tol o) (hf_n o) (hf_nf o) x (hf_tas o) (hf_tasv o)) | _ => None end).
Definition f_hf_tas : field hfleg := mk_field (fun o => VT (hf_tas o)) (fun v o => match v with VT x => Some (mk_hf (hf_rvms o) (hf_vars o) (hf_thr o) (hf_thrusts o) (hf_rvmf o) (hf_tof o) (hf_T o) (hf_isp o) (hf_mu o) (hf_cut o) (hf_tol o) (hf_n o) (hf_nf o) (hf_nb o) x (hf_tasv o)) | _ => None end).
Definition f_hf_tasv : field hfleg := mk_field (fun o => VT (hf_tasv o)) (fun v o => match v with VT x => Some (mk_hf (hf_rvms o) (hf_vars o) (hf_thr o) (hf_thrusts o) (hf_rvmf o) (hf_tof o) (hf_T o) (hf_isp o) (hf_mu o) (hf_cut o) (hf_tol o) (hf_n o) (hf_nf o) (hf_nb o) (hf_tas o) x) | _ => None end).
Definition hf_serialize : list (field hfleg) := [f_hf_rvms; f_hf_vars; f_hf_thr; f_hf_thrusts; f_hf_tof; f_hf_rvmf; f_hf_T; f_hf_isp; f_hf_mu; f_hf_cut; f_hf_tol; f_hf_n; f_hf_nf; f_hf_nb; f_hf_tas].
