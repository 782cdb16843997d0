(** Cases for C102. *)
From Coq Require Import List ZArith Bool QArith.
From Verif Require Import IndexerModel ArrayModel CifModel CifSpec CifProof.
Import ListNotations.
Local Open Scope Z_scope.

(** The M side of a connectivity between two plane grids, with 3 donors of up to 2 points per dimension, resized twice;
    the extents are edited in two dimensions at once. *)
Definition cif_cfg : ccfg := mkCC ConnM 2 (fun d => d) (fun d => d) (fun d => 10 + d) (fun d => 10 + d).
Definition cif_prog : list cop :=
  [COResize 1 4; COEdit 0 FCoords [2]; COWrite 0 0 0 (VD 7); CORestore 0 FCoords [2];
   COResize 3 2;
   COEdit 0 FExtents [0]; COEdit 1 FExtents [1]; COWrite 0 0 2 (VI 5); COWrite 1 1 0 (VI 6);
   CORestore 0 FExtents [0]; CORestore 1 FExtents [1];
   COEdit 3 FCoefs [1; 1]; COWrite 3 0 1 (VD (1 # 4))].

Definition is_some {A} (o : option A) : bool := match o with Some _ => true | None => false end.
Lemma is_some_ex {A} (o : option A) : is_some o = true -> exists x, o = Some x.
Proof. destruct o; [eauto|discriminate]. Qed.
Lemma some_not_none {A} (o : option A) : is_some o = true -> o = None -> False.
Proof. destruct o; discriminate. Qed.
