(** Matching spaces against patterns: crates/pkt/src/space_macro.rs. *)
From Verif Require Import Bytes ModelSpace.

(** An element of a pattern: an expression, compared with the bytes, or a type with [TryFrom<&[u8]>], here a function *)
Inductive Item := Lit (b : bytes) | Ty (try_from : bytes -> option bytes).
(** space_macro.rs:21,30,43,51 what one element does with the bytes of a component: nothing on a mismatch ([None?]), otherwise the
    values it adds to the result *)
Definition item_match (i : Item) (v : bytes) : option (list bytes) :=
  match i with
  | Lit b => if beqb v b then Some [] else None
  | Ty f => match f v with Some x => Some [x] | None => None end
  end.
(** space_macro.rs:6-58 [sp_iter_match!].  A pattern is a list of elements, and whether [..] follows them; the expansion of the macro
    is by recursion over the pattern.  The nested pairs of the result are a list here, and the space given for [..] follows it.
    [is_some] of the second [next] comes before the comparison in the last element (lines 20, 42). *)
Fixpoint sp_iter_match (items : list Item) (rest : bool) (it : space) : outcome SpaceError (option (list bytes * option space)) :=
  match items with
  | [] => if rest then Ok (Some ([], Some it))
          else obind (iter_next it) (fun r => match fst r with None => Ok (Some ([], None)) | Some _ => Ok None end)
  | i :: tail =>
      obind (iter_next it) (fun r =>
      match fst r with
      | None => Ok None
      | Some v =>
          match tail, rest with
          | [], false =>
              obind (iter_next (snd r)) (fun r2 =>
              match fst r2 with
              | Some _ => Ok None
              | None => match item_match i v with Some vs => Ok (Some (vs, None)) | None => Ok None end
              end)
          | _, _ =>
              match item_match i v with
              | None => Ok None
              | Some vs => obind (sp_iter_match tail rest (snd r)) (fun o => Ok (match o with None => None | Some (ws, s) => Some (vs ++ ws, s) end))
              end
          end
      end)
  end.
(** space_macro.rs:60-73 [sp_match!] *)
Definition sp_match (b : space) (items : list Item) (rest : bool) : outcome SpaceError (option (list bytes * option space)) := sp_iter_match items rest b.
(** core::array, [TryFrom<&[u8]> for [u8; n]]: exactly [n] bytes *)
Definition array (n : N) : Item := Ty (fun b => if lenN b =? n then Some b else None).
