(** Model of src/ptwt/packets.py (definitions only).

    A packet object is a mutable dictionary with lazily computed entries, so every operation is a state
    transformer: it returns the new object state together with the outcome (also when it raises).
    The classes WaveletPacket (1d) and WaveletPacket2D share their control flow; they differ in the letters
    of the alphabet, the one-level transforms, the cropping and the node order.  These parts are the fields
    of [backend]; the two classes are the instances below. *)
From Coq Require Import List Arith ZArith Lia Bool String Ascii.
From Verif Require Import Base Tensor Util Conv1 Conv2 Sep.
Import ListNotations.

(** dictionary keys: Python strings as lists of characters *)
Definition key := list ascii.
Definition ks (s : string) : key := list_ascii_of_string s.
Definition key_eqb (a b : key) : bool := list_eqb Ascii.eqb a b.

(** itertools.product(letters, repeat=n), joined *)
Fixpoint product_rep (letters : key) (n : nat) : list key :=
  match n with O => [[]] | S m => flat_map (fun c => map (cons c) (product_rep letters m)) letters end.

(** packets.py:300-310 WaveletPacket._get_graycode_order, the loop *)
Fixpoint gray_loop (n : nat) (x y : ascii) (l : list key) : list key :=
  match n with O => l | S m => gray_loop m x y (map (cons x) l ++ map (cons y) (rev l)) end.
(** packets.py:301-310 (level >= 0) *)
Definition graycode_order (level : nat) (x y : ascii) : list key :=
  match level with O => [[]] | _ => gray_loop (level - 1) x y [[x]; [y]] end.
(** packets.py:274-299 WaveletPacket.get_level *)
Definition get_level1 (level : nat) (order : string) : result (list key) :=
  if String.eqb order "freq" then Ok (graycode_order level "a" "d")
  else if String.eqb order "natural" then Ok (product_rep ["a"; "d"]%char level)
  else Raise ValueError.

(** packets.py:708-718 get_natural_order *)
Definition natural_order2 (level : nat) : list key := product_rep ["a"; "h"; "v"; "d"]%char level.
(** packets.py:752-757 _expand_2d_path; other letters (KeyError) cannot occur *)
Definition expand_letter (c : ascii) : ascii * ascii :=
  if Ascii.eqb c "d" then ("h", "h")%char else if Ascii.eqb c "h" then ("h", "l")%char
  else if Ascii.eqb c "v" then ("l", "h")%char else ("l", "l")%char.
Definition expand_2d_path (p : key) : key * key := (map (fun c => fst (expand_letter c)) p, map (fun c => snd (expand_letter c)) p).
(** dictionaries with string keys *)
Section KDict.
Context {A : Type}.
Definition kdict := list (key * A).
Fixpoint kget (d : kdict) (k : key) : option A :=
  match d with [] => None | (k', v) :: r => if key_eqb k' k then Some v else kget r k end.
Fixpoint kset (d : kdict) (k : key) (v : A) : kdict :=
  match d with [] => [(k, v)] | (k', v') :: r => if key_eqb k' k then (k', v) :: r else (k', v') :: kset r k v end.
Fixpoint kdel (d : kdict) (k : key) : kdict :=
  match d with [] => [] | (k', v') :: r => if key_eqb k' k then r else (k', v') :: kdel r k end.
Definition kmem (d : kdict) (k : key) : bool := match kget d k with Some _ => true | None => false end.
End KDict.
Arguments kdict : clear implicits.
(** packets.py:744-750, the inner _get_graycode_order: no special case for level 0 *)
Definition graycode_order2 (level : nat) : list key := gray_loop (level - 1) "l" "h" [["l"]; ["h"]]%char.
(** packets.py:759-772: nodes_dict and the two filtered passes over the Gray code *)
Definition nodes_dict (nodes : list key) : kdict (kdict key) :=
  fold_left (fun d node =>
    let '(row, col) := expand_2d_path node in
    let inner := match kget d row with Some i => i | None => [] end in
    kset d row (kset inner col node)) nodes [].
Definition pick {A} (d : kdict A) (order : list key) : list A :=
  flat_map (fun p => match kget d p with Some v => [v] | None => [] end) order.
(** packets.py:720-772 get_freq_order *)
Definition freq_order2 (level : nat) : list (list key) :=
  let g := graycode_order2 level in
  map (fun row => pick row g) (pick (nodes_dict (natural_order2 level)) g).
(** packets.py:679-706 WaveletPacket2D.get_level: a flat list or a grid *)
Definition get_level2 (level : nat) (order : string) : result (list key + list (list key)) :=
  if String.eqb order "freq" then Ok (inr (freq_order2 level))
  else if String.eqb order "natural" then Ok (inl (natural_order2 level))
  else Raise ValueError.

(** the class-dependent parts *)
Record backend (K : CRing) := mkBE {
  be_st : Type;
  be_letters : key;
  be_dec : be_st -> tensor K -> be_st * result (list (tensor K));
  be_rec : be_st -> list (tensor K) -> be_st * result (tensor K);
  be_crop : tensor K -> tensor K -> result (tensor K);
  be_order : nat -> list key;
  be_maxlevel : tensor K -> result nat }.
Arguments mkBE {K}. Arguments be_st {K}. Arguments be_letters {K}. Arguments be_dec {K}. Arguments be_rec {K}.
Arguments be_crop {K}. Arguments be_order {K}. Arguments be_maxlevel {K}.

Section Packet.
Context {K : CRing} (B : backend K).

Record packet := mkP { p_data : kdict (tensor K); p_max : option Z; p_be : be_st B }.

(** a new object without data: __init__ with data=None (packets.py:122-147, 407-434) *)
Definition pk_new (b : be_st B) : packet := mkP [] None b.

(** packets.py:149-177 and 436-467 transform; self.data is replaced before maxlevel is computed *)
Definition pk_transform (s : packet) (x : tensor K) (maxlevel : option Z) : packet * result unit :=
  match maxlevel with
  | Some m => (mkP [([], x)] (Some m) (p_be s), Ok tt)
  | None =>
      match be_maxlevel B x with
      | Ok m => (mkP [([], x)] (Some (Z.of_nat m)) (p_be s), Ok tt)
      | Raise e => (mkP [([], x)] (p_max s) (p_be s), Raise e)
      end
  end.

Definition memc (c : ascii) (l : key) : bool := existsb (Ascii.eqb c) l.
Fixpoint set_children (d : kdict (tensor K)) (path : key) (letters : key) (ch : list (tensor K)) : kdict (tensor K) :=
  match letters, ch with
  | c :: ls, v :: vs => set_children (kset d (path ++ [c]) v) path ls vs
  | _, _ => d
  end.

(** packets.py:318-359 and 622-670 __getitem__ together with 312-316 / 528-539 _expand_node.  The argument is
    the reversed key: the recursion reads key[:-1]. *)
Fixpoint pk_get_rev (rk : key) (s : packet) : packet * result (tensor K) :=
  match p_max s with
  | None => (s, Raise ValueError)
  | Some m =>
      match kget (p_data s) (rev rk) with
      | Some v => (s, Ok v)
      | None =>
          if (m <? Z.of_nat (List.length rk))%Z then (s, Raise KeyError)
          else match rk with
          | [] => (s, Raise ValueError)
          | c :: rp =>
              if memc c (be_letters B) then
                let '(s1, r) := pk_get_rev rp s in
                match r with
                | Raise e => (s1, Raise e)
                | Ok data =>
                    let '(b, rch) := be_dec B (p_be s1) data in
                    match rch with
                    | Raise e => (mkP (p_data s1) (p_max s1) b, Raise e)
                    | Ok ch =>
                        let d := set_children (p_data s1) (rev rp) (be_letters B) ch in
                        (mkP d (p_max s1) b,
                         match kget d (rev rk) with Some v => Ok v | None => Raise KeyError end)
                    end
                end
              else (s, Raise ValueError)
          end
      end
  end.
Definition pk_get (s : packet) (k : key) := pk_get_rev (rev k) s.

(** wp[k] = v and del wp[k] (collections.UserDict) *)
Definition pk_set (s : packet) (k : key) (v : tensor K) : packet := mkP (kset (p_data s) k v) (p_max s) (p_be s).
Definition pk_del (s : packet) (k : key) : packet * result unit :=
  if kmem (p_data s) k then (mkP (kdel (p_data s) k) (p_max s) (p_be s), Ok tt) else (s, Raise KeyError).

(** packets.py:179-188 and 469-478 initialize: reads the keys in order, stops at the first exception *)
Fixpoint pk_init (s : packet) (keys : list key) : packet * result unit :=
  match keys with
  | [] => (s, Ok tt)
  | k :: r => let '(s1, v) := pk_get s k in
      match v with Ok _ => pk_init s1 r | Raise e => (s1, Raise e) end
  end.

(** reading a list of keys; here all are present *)
Fixpoint pk_gets (s : packet) (keys : list key) : packet * result (list (tensor K)) :=
  match keys with
  | [] => (s, Ok [])
  | k :: r => let '(s1, v) := pk_get s k in
      match v with
      | Raise e => (s1, Raise e)
      | Ok t => let '(s2, l) := pk_gets s1 r in (s2, let* l' := l in Ok (t :: l'))
      end
  end.
(** packets.py:213-238 and 495-526, the body of the two loops of reconstruct *)
Definition pk_rec_node (s : packet) (level : nat) (node : key) : packet * result unit :=
  let kids := map (fun c => node ++ [c]) (be_letters B) in
  if forallb (kmem (p_data s)) kids then
    let '(s1, rch) := pk_gets s kids in
    match rch with
    | Raise e => (s1, Raise e)
    | Ok ch =>
        let '(b, rr) := be_rec B (p_be s1) ch in
        let s2 := mkP (p_data s1) (p_max s1) b in
        match rr with
        | Raise e => (s2, Raise e)
        | Ok r =>
            if Nat.ltb 0 level then
              let '(s3, rn) := pk_get s2 node in
              match (let* n := rn in be_crop B r n) with
              | Raise e => (s3, Raise e)
              | Ok r' => (pk_set s3 node r', Ok tt)
              end
            else (pk_set s2 node r, Ok tt)
        end
    end
  else (s, Raise KeyError).
Fixpoint pk_rec_nodes (s : packet) (level : nat) (nodes : list key) : packet * result unit :=
  match nodes with
  | [] => (s, Ok tt)
  | n :: r => let '(s1, v) := pk_rec_node s level n in
      match v with Ok _ => pk_rec_nodes s1 level r | Raise e => (s1, Raise e) end
  end.
(** for level in reversed(range(n)) *)
Fixpoint pk_rec_levels (s : packet) (n : nat) : packet * result unit :=
  match n with
  | O => (s, Ok tt)
  | S l => let '(s1, v) := pk_rec_nodes s l (be_order B l) in
      match v with Ok _ => pk_rec_levels s1 l | Raise e => (s1, Raise e) end
  end.
(** packets.py:190-238 and 480-526 reconstruct.  With maxlevel None the first statement reads self[""], which
    raises ValueError. *)
Definition pk_reconstruct (s : packet) : packet * result unit :=
  match p_max s with
  | None => (s, Raise ValueError)
  | Some m => pk_rec_levels s (Z.to_nat m)
  end.

(** Histories of operations on one object.  An exception leaves the object as it is and the program may go
    on (the harshest reading for the properties). *)
Inductive op :=
| ORead (k : key) | OInit (l : list key) | OAssign (k : key) (v : tensor K) | ODelete (k : key)
| OReconstruct | OTransform (x : tensor K) (maxlevel : option Z).
Definition pk_step (s : packet) (o : op) : packet :=
  match o with
  | ORead k => fst (pk_get s k)
  | OInit l => fst (pk_init s l)
  | OAssign k v => pk_set s k v
  | ODelete k => fst (pk_del s k)
  | OReconstruct => fst (pk_reconstruct s)
  | OTransform x m => fst (pk_transform s x m)
  end.
Definition pk_run (s : packet) (h : list op) : packet := fold_left pk_step h s.
End Packet.
Arguments mkP {K B}. Arguments p_data {K B}. Arguments p_max {K B}. Arguments p_be {K B}.
Arguments ORead {K}. Arguments OInit {K}. Arguments OAssign {K}. Arguments ODelete {K}. Arguments OReconstruct {K}. Arguments OTransform {K}.

Section Instances.
Context {K : CRing}.
Implicit Types t u : tensor K.

(** data.shape[axis] for an int axis *)
Definition shape_at t (axis : Z) : result nat :=
  let n := Z.of_nat (rank t) in
  if ((- n <=? axis) && (axis <? n))%Z
  then Ok (nth (Z.to_nat (if (axis <? 0)%Z then axis + n else axis)%Z) (shp t) 0) else Raise IndexError.

(** packets.py:312-316 with _get_wavedec (240-256), padding modes: one level of wavedec *)
Definition dec1 (w : wavelet K) (mode : string) (axis : Z) t : result (list (tensor K)) :=
  let* _ := shape_at t axis in
  let* c := wavedec t w (Some mode) (Some 1%Z) axis in
  match pc_items c with [PT a; PT d] => Ok [a; d] | _ => Raise ValueError end.
(** packets.py:220-227 with _get_waverec (258-272) *)
Definition rec1 (w : wavelet K) (axis : Z) (ch : list (tensor K)) : result (tensor K) :=
  match ch with
  | a :: _ => let* _ := shape_at a axis in waverec (map PT ch) w (AxInt axis)
  | [] => Raise IndexError
  end.
(** packets.py:228-236: drop the sample added by padding *)
Definition crop1 (axis : Z) (r node : tensor K) : result (tensor K) :=
  let* a := shape_at r axis in let* b := shape_at node axis in
  if Nat.eqb a b then Ok r
  else if Nat.eqb a (b + 1) then
    let ax := Z.to_nat (if (axis <? 0)%Z then axis + Z.of_nat (rank r) else axis)%Z in
    Ok (transpose (slice_dropend (transpose r ax (rank r - 1)) (rank r - 1) 1) (rank r - 1) ax)
  else Raise AssertionError.
(** packets.py:67-361, WaveletPacket with a padding mode *)
Definition packet1 (w : wavelet K) (mode : string) (axis : Z) : backend K :=
  mkBE unit ["a"; "d"]%char
    (fun b t => (b, dec1 w mode axis t))
    (fun b ch => (b, rec1 w axis ch))
    (crop1 axis)
    (fun l => graycode_order l "a" "d")
    (fun x => let* n := shape_at x axis in dwt_max_level n (get_len w)).

(** packets.py:528-539 _expand_node with _get_wavedec (541-570), padding modes, and
    _transform_fsdict_to_tuple_func (607-624) *)
Definition dec2 (w : wavelet K) (mode : string) (axes : list Z) (separable : bool) t : result (list (tensor K)) :=
  let* _ := swap_axes axes t in
  if separable then
    let* c := fswavedec2 t w (Some mode) (Some 1%Z) (AxSeq axes) in
    match pc_items c with
    | [PT a; PDict d] =>
        match dict_get d "ad", dict_get d "da", dict_get d "dd" with
        | Some h, Some v, Some dd => Ok [a; h; v; dd]
        | _, _, _ => Raise KeyError
        end
    | _ => Raise AssertionError
    end
  else
    let* c := wavedec2 t w (Some mode) (Some 1%Z) (AxSeq axes) in
    match pc_items c with [PT a; PTup [h; v; d]] => Ok [a; h; v; d] | _ => Raise AssertionError end.
(** packets.py:500-513 with _get_waverec (572-590) and _transform_tuple_to_fsdict_func (610-620) *)
Definition rec2 (w : wavelet K) (axes : list Z) (separable : bool) (ch : list (tensor K)) : result (tensor K) :=
  match ch with
  | [a; h; v; d] =>
      let* _ := swap_axes axes a in
      if separable then fswaverec2 (mkPC false [PT a; PDict [("ad", h); ("da", v); ("dd", d)]%string]) w (AxSeq axes)
      else waverec2 (mkPC false [PT a; PTup [h; v; d]]) w (AxSeq axes)
  | _ => Raise ValueError
  end.
(** packets.py:512-524 *)
Definition crop_one t (i want : nat) : result (tensor K) :=
  if Nat.eqb (dim_last t i) want then Ok t
  else if Nat.eqb (dim_last t i) (want + 1) then Ok (slice_dropend t (rank t - i) 1)
  else Raise AssertionError.
Definition crop2 (axes : list Z) (r node : tensor K) : result (tensor K) :=
  let* rs := swap_axes axes r in
  let* ns := swap_axes axes node in
  let* r1 := crop_one rs 1 (dim_last ns 1) in
  let* r2 := crop_one r1 2 (dim_last ns 2) in
  undo_swap_axes axes r2.
(** packets.py:362-772, WaveletPacket2D with a padding mode *)
Definition packet2 (w : wavelet K) (mode : string) (axes : list Z) (separable : bool) : backend K :=
  mkBE unit ["a"; "h"; "v"; "d"]%char
    (fun b t => (b, dec2 w mode axes separable t))
    (fun b ch => (b, rec2 w axes separable ch))
    (crop2 axes)
    natural_order2
    (fun x => let* s := swap_axes axes x in dwt_max_level (Nat.min (dim_last s 2) (dim_last s 1)) (get_len w)).
End Instances.
