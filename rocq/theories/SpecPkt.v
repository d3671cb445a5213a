(** Independent specification of the packet format: what a point is and how it is
    laid out in bytes.  Nothing here mentions the model. *)
From Verif Require Import Bytes SpecSpace.

(** The four kinds of points with the fields a user sees. *)
Inductive point :=
| PData (d : bytes)
| PError (d : bytes)
| PLink (group domain : bytes) (create : N) (links : list (bytes * bytes)) (rspace data : bytes)
| PKey (group domain : bytes) (create : N) (links : list (bytes * bytes)) (rspace data : bytes)
       (pubkey signature : bytes).

(** The rooted spaces the library accepts (proved exact in C15). *)
Definition rooted_ok (b : bytes) : Prop :=
  b = [] \/ exists d cs, space_ok cs /\ (length cs <= 8)%nat /\
            ((length cs < 8)%nat -> d = N.of_nat (length cs)) /\ b = rooted_with d cs.

Definition link_ok (l : bytes * bytes) : Prop := lenN (fst l) = 16 /\ lenN (snd l) = 32.
Definition link_bytes (l : bytes * bytes) : bytes := fst l ++ snd l.

Definition type_byte (p : point) : N :=
  match p with PData _ => 1 | PLink _ _ _ _ _ _ => 3 | PKey _ _ _ _ _ _ _ _ => 7 | PError _ => 128 end.

(** Header (4 bytes) and fields, not counting the padding. *)
Definition point_size (p : point) : N :=
  match p with
  | PData d | PError d => 4 + lenN d
  | PLink _ _ _ ls rs d => 64 + 48 * lenN ls + lenN rs + lenN d
  | PKey _ _ _ ls rs d _ _ => 64 + 48 * lenN ls + lenN rs + lenN d + 96
  end.

Definition point_body (p : point) : bytes :=
  match p with
  | PData d | PError d => d
  | PLink g dm c ls rs d | PKey g dm c ls rs d _ _ =>
      be_encode 2 (64 + 48 * lenN ls) ++ be_encode 2 (64 + 48 * lenN ls + lenN rs) ++
      be_encode 8 c ++ g ++ dm ++ flat_map link_bytes ls ++ rs ++ d
  end.

(** Points are padded with 0xFF to a multiple of eight bytes. *)
Definition pad_len (p : point) : N := (8 - point_size p mod 8) mod 8.
Definition padding_bytes (p : point) : bytes := repeat 255 (N.to_nat (pad_len p)).

(** What the signature covers: everything before it. *)
Definition unsigned_content (p : point) : bytes :=
  [0; type_byte p] ++ be_encode 2 (point_size p) ++ point_body p ++ padding_bytes p.

(** The bytes the point hash covers. *)
Definition content (p : point) : bytes :=
  unsigned_content p ++ match p with PKey _ _ _ _ _ _ pk sig => pk ++ sig | _ => [] end.

(** Field sizes and limits. *)
Definition point_ok (p : point) : Prop :=
  point_size p <= 65024 /\
  match p with
  | PData _ | PError _ => True
  | PLink g dm c ls rs d =>
      lenN g = 32 /\ lenN dm = 16 /\ c < 2 ^ 64 /\ Forall link_ok ls /\ rooted_ok rs
  | PKey g dm c ls rs d pk sig =>
      lenN g = 32 /\ lenN dm = 16 /\ c < 2 ^ 64 /\ Forall link_ok ls /\ rooted_ok rs /\
      lenN pk = 32 /\ lenN sig = 64
  end.

(** A network packet: a 32-byte routing header, the hash of the content, the content. *)
Definition packet (hash : bytes -> bytes) (nh : bytes) (p : point) : bytes :=
  nh ++ hash (content p) ++ content p.

(** A keypoint's signature verifies over the hash of everything before it. *)
Definition signature_ok (hash : bytes -> bytes) (validate : bytes -> bytes -> bytes -> bool) (p : point) : Prop :=
  match p with
  | PKey _ _ _ _ _ _ pk sig => validate pk sig (hash (unsigned_content p)) = true
  | _ => True
  end.

Definition point_group (p : point) : option bytes :=
  match p with PLink g _ _ _ _ _ | PKey g _ _ _ _ _ _ _ => Some g | _ => None end.

(** The all-zero group is the private group. *)
Definition in_private_group (p : point) : Prop := point_group p = Some (repeat 0 32).
