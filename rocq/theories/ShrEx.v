(** Programs used as cases beside the theorems C104. *)
From Coq Require Import List.
From Verif Require Import ShrModel.
Import ListNotations.

(** As in examples/InterfaceC.c, and a second context: context 7 is created in variable 0 and shared as holder 0; a domain
    (1) and an exchanger (2) are made from it; the handle is reset; the context is used through the old variable and one
    taken from the domain (1), of which a further handle (3) is taken before it is destroyed.  Context 8 is destroyed
    without having been shared. *)
Definition ctx_prog : list sop :=
  [SCreate 0 7; SUse 0; SShare 0 0; SCreate 2 8; SCopy 1 0; SCopy 2 0; SDrop 0; SUse 0; SGet 1 1; SUse 1; SDestroy 2;
   SCopy 3 1; SDrop 1; SDrop 2; SUse 1].
