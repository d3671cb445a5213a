(** What the arguments of lk_linkpoint and lk_keypoint in JavaScript mean, independent of the functions of ModelJsPoint; of
    the models only the types are used.  [names32] and [names16] are those of SpecPyPoint. *)
From Verif Require Import Bytes SpecSpace SpecPkt SpecFmt ModelPyPoint SpecPyPoint ModelJsPoint.

(** A text or a Uint8Array *)
Definition js_says (v : JsVal) (b : bytes) : Prop := v = JsU b \/ exists cs, v = JsS cs /\ b = List.concat cs.
(** Left out, or another value that counts as false *)
Definition left_out (v : JsVal) : Prop := v = JsFalsy \/ exists cs, v = JsS cs /\ List.concat cs = [].
Definition js_given {A} (dflt : A) (v : JsVal) (x : A) (P : JsVal -> A -> Prop) : Prop :=
  left_out v /\ x = dflt \/ ~ left_out v /\ P v x.
Definition js_is_group (v : JsVal) (g : bytes) : Prop := exists b, js_says v b /\ names32 b g.
Definition js_is_domain (v : JsVal) (d : bytes) : Prop := exists b, js_says v b /\ names16 b d.
(** The bytes of a space, or its components; at most eight *)
Definition js_is_space (v : JsVal) (cs : list bytes) : Prop :=
  space_ok cs /\ (List.length cs <= 8)%nat /\
  match v with JsU b => b = wire_space cs | JsIter l => Forall2 js_says l cs | _ => False end.
(** A link: an object with a pointer and a tag, or its 48 bytes *)
Definition js_is_link (v : JsVal) (k : bytes * bytes) : Prop :=
  lenN (fst k) = 16 /\ lenN (snd k) = 32 /\ (v = JsObj (JsU (snd k)) (JsU (fst k)) \/ v = JsU (fst k ++ snd k)).
(** Links: the bytes of all of them, or a list *)
Definition js_is_links (v : JsVal) (ls : list (bytes * bytes)) : Prop :=
  match v with
  | JsU b => Forall (fun k => lenN (fst k) = 16 /\ lenN (snd k) = 32) ls /\ b = List.concat (map (fun k => fst k ++ snd k) ls)
  | JsIter l => Forall2 js_is_link l ls
  | _ => False
  end.
Definition js_is_stamp (v : JsVal) (s : N) : Prop := exists b, v = JsU b /\ lenN b = 8 /\ s = be_decode b.
Definition js_means (public : bytes) (now : N) (data : JsVal) (f : JsFields) (m : Meaning) : Prop :=
  js_says data (m_data m) /\ js_given public (f_group f) (m_group m) js_is_group /\
  js_given (repeat 0 16) (f_domain f) (m_domain m) js_is_domain /\ js_given [] (f_space f) (m_space m) js_is_space /\
  js_given [] (f_links f) (m_links m) js_is_links /\ js_given now (f_create f) (m_stamp m) js_is_stamp.
