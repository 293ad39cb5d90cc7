(** Model of GnarkEval of the gates in circuit/gates.go, on the constraint system.  The field [gnark] of MCircuit.Gate is the
    value of the variable returned. *)
From Coq Require Import List Arith.
From Verif Require Import Field Go MSnark.
Import ListNotations.

Section G.
  Context {F : Field}.
  Open Scope F_scope.

  (** circuit/gates.go:50-53 AddGate.GnarkEval *)
  Definition GnarkAdd : SGate (F:=F) := fun vL vR => cAdd vL vR [].

  (** circuit/gates.go:87-89 MulGate.GnarkEval *)
  Definition GnarkMul : SGate (F:=F) := fun vL vR => cMul vL vR.

  (** circuit/gates.go:123-125 CopyGate.GnarkEval *)
  Definition GnarkCopy : SGate (F:=F) := fun vL vR => ret vL.

  (** circuit/gates.go:172-179 CipherGate.GnarkEval *)
  Definition GnarkCipher (ark : F) : SGate (F:=F) := fun vL vR =>
    mbind (cConstant ark) (fun k =>
    mbind (cAdd vR k []) (fun tmp =>
    mbind (cMul tmp tmp) (fun cipher =>
    mbind (cMul cipher tmp) (fun cipher =>
    mbind (cMul cipher cipher) (fun cipher =>
    mbind (cMul cipher tmp) (fun cipher =>
    cAdd cipher vL [])))))).
End G.
