(** Specification of matching spaces against patterns. *)
From Verif Require Import Bytes ModelSpMatch.

(** The elements stand for these components and take these values out of them *)
Inductive fits : list Item -> list bytes -> list bytes -> Prop :=
| fits_nil : fits [] [] []
| fits_lit b is cs vs : fits is cs vs -> fits (Lit b :: is) (b :: cs) vs
| fits_ty f c v is cs vs : f c = Some v -> fits is cs vs -> fits (Ty f :: is) (c :: cs) (v :: vs).
