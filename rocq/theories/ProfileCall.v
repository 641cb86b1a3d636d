(** Model of the calls of Profile.pressure and Profile.fpol (jtor.py 41-110) and of
    ProfilesPprimeFfprime.pressure and fpol (501-523) with the kinds of argument they tell apart,
    the output array and the attributes psi_axis and psi_bndry, which only Jtor sets. *)
From Coq Require Import List Arith Bool.
From Verif Require Import Py Num Jtor.
Import ListNotations.

(** A number, a Python list, or a numpy array (flattened). *)
Inductive parg (T : Type) : Type := PNum (x : T) | PList (l : list T) | PArr (l : list T).
Arguments PNum {T} x. Arguments PList {T} l. Arguments PArr {T} l.
Inductive pval (T : Type) : Type := VNum (x : T) | VArr (l : list T).
Arguments VNum {T} x. Arguments VArr {T} l.

Section ProfileCall.
  Context {T : Type} `{Num T}.
  Variable quad : (T -> T) -> T -> T -> T.
  Variable sqrt : T -> T.
  (** (psi_axis, psi_bndry); None before the first Jtor *)
  Definition fluxes : Type := option (T * T).

  (** lines 57-71 and 93-110: the common loop over an array; [f pa pb] is the value at one point,
      which reads the attributes.  The result comes with the output array as it is afterwards. *)
  Definition fill (f : T -> T -> T -> T) (st : fluxes) (pvals : list T) (out : option (list T)) : result (pval T * option (list T)) :=
    let n := match out with Some o => length o | None => length pvals end in
    if negb (length pvals =? n)%nat then Raise ValueError
    else match pvals, st with
         | [], _ => Ok (VArr [], out)
         | _, None => Raise AttributeError
         | _, Some (pa, pb) => let v := map (f pa pb) pvals in Ok (VArr v, match out with Some _ => Some v | None => None end)
         end.
  (** pressure: a list has no member shape and goes to quad as it is, where [1.0 < list] raises *)
  Definition base_pressure (pprime : T -> T) (st : fluxes) (a : parg T) (out : option (list T)) : result (pval T * option (list T)) :=
    match a with
    | PNum x => match st with Some (pa, pb) => Ok (VNum (pressure quad pprime pa pb x), out) | None => Raise AttributeError end
    | PList _ => Raise TypeError
    | PArr l => fill (fun pa pb => pressure quad pprime pa pb) st l out
    end.
  (** fpol: a list has a member __len__ and is turned into an array *)
  Definition base_fpol (ffprime : T -> T) (fvac : T) (st : fluxes) (a : parg T) (out : option (list T)) : result (pval T * option (list T)) :=
    match a with
    | PNum x => match st with Some (pa, pb) => Ok (VNum (fpol quad sqrt ffprime pa pb fvac x), out) | None => Raise AttributeError end
    | PList l | PArr l => fill (fun pa pb => fpol quad sqrt ffprime pa pb fvac) st l out
    end.

  (** a function given by the user, applied to the argument (point by point, as numpy functions do) *)
  Definition given (f : T -> T) (a : parg T) : pval T :=
    match a with PNum x => VNum (f x) | PList l | PArr l => VArr (map f l) end.
  (** ProfilesPprimeFfprime.pressure (501-511) *)
  Definition pressure_call (p : fprofile) (st : fluxes) (a : parg T) (out : option (list T)) : result (pval T * option (list T)) :=
    match p_func p with
    | Some f => Ok (given f a, out)
    | None => base_pressure (fpprime p) st a out
    end.
  (** ProfilesPprimeFfprime.fpol (513-523) *)
  Definition fpol_call (p : fprofile) (st : fluxes) (a : parg T) (out : option (list T)) : result (pval T * option (list T)) :=
    match f_func p with
    | Some f => Ok (given f a, out)
    | None => base_fpol (fffprime p) (ffvac p) st a out
    end.
End ProfileCall.
