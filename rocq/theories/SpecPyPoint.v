(** What the arguments of lk_linkpoint and lk_keypoint in Python mean (ffi/linkspace-py/linkspace.pyi:87-95), independent of the
    functions of ModelPyPoint; only its types are used. *)
From Verif Require Import Bytes SpecSpace SpecPkt SpecFmt ModelPyPoint.

(** bytes|str *)
Definition says (v : PyVal) (b : bytes) : Prop := v = PyB b \/ exists cs, v = PyS cs /\ b = List.concat cs.
(** The 32 bytes of a group or hash, or their base64 text *)
Definition names32 (b g : bytes) : Prop := lenN g = 32 /\ (b = g \/ bytes_ok g /\ b64_text true b g).
(** At most 16 bytes, filled with zeros in front *)
Definition names16 (b d : bytes) : Prop := lenN b <= 16 /\ d = repeat 0 (N.to_nat (16 - lenN b)) ++ b.
Definition given {A} (dflt : A) (v : option PyVal) (x : A) (P : PyVal -> A -> Prop) : Prop := match v with None => x = dflt | Some v => P v x end.
Definition is_group (v : PyVal) (g : bytes) : Prop := exists b, v = PyB b /\ names32 b g.
Definition is_domain (v : PyVal) (d : bytes) : Prop := exists b, says v b /\ names16 b d.
(** The bytes of a space, or the list of its components; at most eight *)
Definition is_space (v : PyVal) (cs : list bytes) : Prop :=
  space_ok cs /\ (List.length cs <= 8)%nat /\
  match v with PyB b => b = wire_space cs | PyList l => Forall2 says l cs | _ => False end.
Definition is_stamp (v : PyVal) (s : N) : Prop := exists b, v = PyB b /\ lenN b = 8 /\ s = be_decode b.
Record Meaning := mkMeaning { m_data : bytes; m_group : bytes; m_domain : bytes; m_space : list bytes; m_links : list (bytes * bytes); m_stamp : N }.
Definition means (dgroup ddomain : bytes) (now : N) (a : PyArgs) (m : Meaning) : Prop :=
  given [] (a_data a) (m_data m) says /\ given dgroup (a_group a) (m_group m) is_group /\ given ddomain (a_domain a) (m_domain m) is_domain /\
  given [] (a_space a) (m_space m) is_space /\ m_links m = match a_links a with None => [] | Some l => l end /\ given now (a_create a) (m_stamp m) is_stamp.
Definition link_point_of (m : Meaning) : point := PLink (m_group m) (m_domain m) (m_stamp m) (m_links m) (wire_rooted (m_space m)) (m_data m).
