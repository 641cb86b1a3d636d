(** Model of freegs/jtor.py: the plasma profile classes. *)
From Coq Require Import List Arith ZArith Bool.
From Verif Require Import Py Num Numpy Romb.
Import ListNotations.
Local Open Scope num_scope.

Section Jtor.
  Context {T : Type} `{Num T}.
  (** x ** a, scipy.integrate.quad (its value), scipy.constants.mu_0, numpy.sqrt *)
  Variable pow : T -> T -> T.
  Variable quad : (T -> T) -> T -> T -> T.
  Variable mu0 : T.
  Variable sqrt : T -> T.
  Local Notation "'let*' x := e 'in' k" := (bind e (fun x => k))
    (at level 200, x name, e at level 100, k at level 200, right associativity).

  (** a critical point (R, Z, psi) *)
  Definition cpoint : Type := (T * T * T)%type.

  (** The grid and what Jtor asks of the rest of freegs.  [find_critical] and [core_mask] are
      critical.find_critical(R, Z, psi) and critical.core_mask(R, Z, psi, opt, xpt[, psi_bndry])
      with the grid arrays R, Z fixed; [updated_bndry psi] is the value of eq.psi_bndry after
      eq._updateBoundaryPsi(psi); [eqBr], [eqBz] are eq.Br(R, Z), eq.Bz(R, Z). *)
  Record env := mkenv {
    nx : nat; ny : nat; gR : arr2 T; gZ : arr2 T;
    find_critical : arr2 T -> result (list cpoint * list cpoint);
    core_mask : arr2 T -> list cpoint -> list cpoint -> option T -> result (arr2 T);
    updated_bndry : arr2 T -> result (option T);
    eqBr : arr2 T; eqBz : arr2 T }.

  (** ** Profile (jtor.py 30-136) *)
  (** Profile.pressure at one value, lines 48-52; [pa], [pb] are self.psi_axis, self.psi_bndry *)
  Definition pressure (pprime : T -> T) (pa pb : T) (psinorm : T) : T := quad pprime psinorm n1 * (pa - pb).
  (** Profile.pressure for an array, lines 54-71 (flattened); [out] is the length of the optional output array *)
  Definition pressure_arr (pprime : T -> T) (pa pb : T) (pvals : list T) (out : option nat) : result (list T) :=
    match out with
    | Some n => if (length pvals =? n)%nat then Ok (map (fun p => quad pprime p n1 * (pa - pb)) pvals) else Raise ValueError
    | None => Ok (map (fun p => quad pprime p n1 * (pa - pb)) pvals)
    end.
  (** Profile.fpol at one value, lines 79-88 *)
  Definition fpol (ffprime : T -> T) (pa pb fvac : T) (psinorm : T) : T :=
    let val := quad ffprime psinorm n1 * (pa - pb) in sqrt (n2 * val + fvac * fvac).
  (** Profile.fpol for an array, lines 90-110 *)
  Definition fpol_arr (ffprime : T -> T) (pa pb fvac : T) (pvals : list T) (out : option nat) : result (list T) :=
    match out with
    | Some n => if (length pvals =? n)%nat then Ok (map (fpol ffprime pa pb fvac) pvals) else Raise ValueError
    | None => Ok (map (fpol ffprime pa pb fvac) pvals)
    end.

  (** ** Finding the plasma core: lines 187-200, 349-362, 471-484 *)
  Definition find_core (e : env) (psi : arr2 T) (psi_bndry : option T) : result (T * T * option (arr2 T)) :=
    let* ox := find_critical e psi in
    let (opt, xpt) := (ox : list cpoint * list cpoint) in
    match opt with
    | [] => Raise ValueError
    | (_, _, psi_axis) :: _ =>
        match psi_bndry with
        | Some pb => let* m := core_mask e psi opt xpt (Some pb) in Ok (pb, psi_axis, Some m)
        | None =>
            match xpt with
            | (_, _, px) :: _ => let* m := core_mask e psi opt xpt None in Ok (px, psi_axis, Some m)
            | [] => Ok (psi 0%nat 0%nat, psi_axis, None)
            end
        end
    end.

  (** ** ConstrainBetapIp and ConstrainPaxisIp *)
  (** the attributes set by the constructors; [target] is betap or paxis *)
  Record cprofile := mkcprofile { target : T; Ip : T; fvac_ : T; alpha_m : T; alpha_n : T; Raxis : T }.
  (** __init__, lines 157-170 and 319-332 *)
  Definition cprofile_init (target Ip fvac alpha_m alpha_n Raxis : T) : result cprofile :=
    if alpha_m <? n0 then Raise ValueError
    else if alpha_n <? n0 then Raise ValueError
    else Ok (mkcprofile target Ip fvac alpha_m alpha_n Raxis).
  (** the attributes set by Jtor, lines 276-279 and 413-416 *)
  Record cstate := mkcstate { L : T; Beta0 : T; psi_bndry : T; psi_axis : T }.

  (** (1.0 - x**alpha_m) ** alpha_n *)
  Definition shape (p : cprofile) (x : T) : T := pow (n1 - pow x (alpha_m p)) (alpha_n p).
  Definition masked (m : option (arr2 T)) (a : arr2 T) : arr2 T :=
    match m with Some m => fun i j => a i j * m i j | None => a end.
  Definition dR (e : env) : T := gR e 1%nat 0%nat - gR e 0%nat 0%nat.
  Definition dZ (e : env) : T := gZ e 0%nat 1%nat - gZ e 0%nat 0%nat.
  (** romb(romb(a)) * dR * dZ *)
  Definition area_int (e : env) (a : arr2 T) : result T :=
    let* v := romb2 (nx e) (ny e) a in Ok (v * dR e * dZ e).

  (** lines 208-215, 370-377 *)
  Definition psi_norm_of (pb pa : T) (psi : arr2 T) : arr2 T := fun i j => (psi i j - pa) / (pb - pa).
  Definition jtorshape (p : cprofile) (psi_norm : arr2 T) (mask : option (arr2 T)) : arr2 T :=
    masked mask (fun i j => shape p (nclip (psi_norm i j) n0 n1)).

  (** lines 257-281 and 393-418: the common tail, given L*Beta0 *)
  Definition cfinish (e : env) (p : cprofile) (pb pa : T) (js : arr2 T) (LBeta0 : T) : result (arr2 T * cstate) :=
    let* IR := area_int e (fun i j => js i j * gR e i j / Raxis p) in
    let* I_R := area_int e (fun i j => js i j * Raxis p / gR e i j) in
    let L := Ip p / I_R - LBeta0 * (IR / I_R - n1) in
    let Beta0 := LBeta0 / L in
    Ok (fun i j => L * (Beta0 * gR e i j / Raxis p + (n1 - Beta0) * Raxis p / gR e i j) * js i j,
        mkcstate L Beta0 pb pa).

  (** ConstrainBetapIp.Jtor, lines 172-281 *)
  Definition pfunc (e : env) (p : cprofile) (pb pa : T) (psi_norm : arr2 T) (mask : option (arr2 T)) : arr2 T :=
    masked mask (fun i j =>
      if ((1 <=? i) && (i <? nx e - 1) && (1 <=? j) && (j <? ny e - 1))%nat && (nleb n0 (psi_norm i j) && nltb (psi_norm i j) n1)
      then quad (shape p) (psi_norm i j) n1 * (pb - pa) else n0).
  Definition Bpol2 (e : env) (mask : option (arr2 T)) : arr2 T :=
    masked mask (fun i j => nsqr (eqBr e i j) + nsqr (eqBz e i j)).
  Definition betap_Jtor (e : env) (p : cprofile) (psi : arr2 T) (psi_bndry_arg : option T) : result (arr2 T * cstate) :=
    let* ub := updated_bndry e psi in
    let* c := find_core e psi ub in
    let '(pb, pa, mask) := (c : T * T * option (arr2 T)) in
    let psi_norm := psi_norm_of pb pa psi in
    let js := jtorshape p psi_norm mask in
    let* p_int := area_int e (fun i j => pfunc e p pb pa psi_norm mask i j * gR e i j) in
    let* b_int := area_int e (fun i j => Bpol2 e mask i j * gR e i j) in
    let LBeta0 := (b_int / p_int) * (nopp (target p) * Raxis p) / (n2 * mu0) in
    cfinish e p pb pa js LBeta0.

  (** ConstrainPaxisIp.Jtor, lines 334-418 *)
  Definition paxis_Jtor (e : env) (p : cprofile) (psi : arr2 T) (psi_bndry_arg : option T) : result (arr2 T * cstate) :=
    let* ub := updated_bndry e psi in
    let* c := find_core e psi ub in
    let '(pb, pa, mask) := (c : T * T * option (arr2 T)) in
    let psi_norm := psi_norm_of pb pa psi in
    let js := jtorshape p psi_norm mask in
    let shapeintegral := quad (shape p) n0 n1 * (pb - pa) in
    let LBeta0 := nopp (target p) * Raxis p / shapeintegral in
    cfinish e p pb pa js LBeta0.

  (** pprime, ffprime: lines 284-298, 420-434 *)
  Definition cpprime (p : cprofile) (s : cstate) (pn : T) : T :=
    L s * Beta0 s / Raxis p * shape p (nclip pn n0 n1).
  Definition cffprime (p : cprofile) (s : cstate) (pn : T) : T :=
    mu0 * L s * (n1 - Beta0 s) * Raxis p * shape p (nclip pn n0 n1).
  Definition cpressure (p : cprofile) (s : cstate) : T -> T := pressure (cpprime p s) (psi_axis s) (psi_bndry s).
  Definition cfpol (p : cprofile) (s : cstate) : T -> T := fpol (cffprime p s) (psi_axis s) (psi_bndry s) (fvac_ p).

  (** ** ProfilesPprimeFfprime (lines 440-532) *)
  Record fprofile := mkfprofile { fpprime : T -> T; fffprime : T -> T; ffvac : T; p_func : option (T -> T); f_func : option (T -> T) }.
  (** attributes set by Jtor, lines 496-497 *)
  Record fstate := mkfstate { f_bndry : T; f_axis : T }.
  (** Jtor, lines 463-499 *)
  Definition func_Jtor (e : env) (p : fprofile) (psi : arr2 T) (psi_bndry_arg : option T) : result (arr2 T * fstate) :=
    let* c := find_core e psi psi_bndry_arg in
    let '(pb, pa, mask) := (c : T * T * option (arr2 T)) in
    let psi_norm : arr2 T := fun i j => nclip ((psi i j - pa) / (pb - pa)) n0 n1 in
    Ok (masked mask (fun i j => gR e i j * fpprime p (psi_norm i j) + fffprime p (psi_norm i j) / (gR e i j * mu0)),
        mkfstate pb pa).
  (** pressure, fpol: lines 501-523 *)
  Definition fpressure (p : fprofile) (s : fstate) (pn : T) : T :=
    match p_func p with Some f => f pn | None => pressure (fpprime p) (f_axis s) (f_bndry s) pn end.
  Definition ffpol (p : fprofile) (s : fstate) (pn : T) : T :=
    match f_func p with Some f => f pn | None => fpol (fffprime p) (f_axis s) (f_bndry s) (ffvac p) pn end.
End Jtor.
