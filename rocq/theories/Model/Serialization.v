(** Model of src/core/serialization.h (without COMPRESSED_SERIALIZATION, which no build file of /repo defines)
    on a little-endian machine with 4-byte int, 8-byte size_t, 1-byte bool, IEEE doubles.
    A byte (char) is a Z in 0..255.  Simplification: the code stores and loads through a cast pointer that may be
    misaligned; this is taken as an ordinary byte-wise copy (the behaviour on x86-64). *)
From Coq Require Import ZArith List Bool.
From Flocq Require Import IEEE754.Bits.
From Verif.Base Require Import Outcome Num.
Import ListNotations.
Local Open Scope Z_scope.
Local Open Scope outcome_scope.

Definition bytes := list Z.

(** the types the code serializes: int (map sizes, coordinates), size_t (chunk sizes), bool, double *)
Inductive stype := TInt | TSize | TBool | TDouble.
Inductive svalue := VInt (z : Z) | VSize (z : Z) | VBool (b : bool) | VDouble (d : F64).
Definition type_of (v : svalue) : stype :=
  match v with VInt _ => TInt | VSize _ => TSize | VBool _ => TBool | VDouble _ => TDouble end.
(** sizeof *)
Definition sizeof (t : stype) : nat :=
  match t with TInt => 4 | TSize => 8 | TBool => 1 | TDouble => 8 end.

(** the [n] low-order bytes of [z], least significant first *)
Fixpoint le_bytes (n : nat) (z : Z) : bytes :=
  match n with O => [] | S n => z mod 256 :: le_bytes n (z / 256) end.
Fixpoint le_value (l : bytes) : Z :=
  match l with [] => 0 | b :: l => b + 256 * le_value l end.

(** object representation of a value *)
Definition repr (v : svalue) : bytes :=
  match v with
  | VInt z => le_bytes 4 (z mod 2 ^ 32)
  | VSize z => le_bytes 8 (z mod 2 ^ 64)
  | VBool b => [if b then 1 else 0]
  | VDouble d => le_bytes 8 (bits_of_b64 d)
  end.
(** value of an object representation; a bool whose byte is neither 0 nor 1 is undefined *)
Definition unrepr (t : stype) (l : bytes) : outcome svalue :=
  match t with
  | TInt => let u := le_value l in Ok (VInt (if u <? 2 ^ 31 then u else u - 2 ^ 32))
  | TSize => Ok (VSize (le_value l))
  | TBool => match l with [0] => Ok (VBool false) | [1] => Ok (VBool true) | _ => UB end
  | TDouble => Ok (VDouble (b64_of_bits (le_value l)))
  end.

(** serialization.h:28-33 [add_value], 57-61 operator<<: resize and store at the old end *)
Definition add_value (data : bytes) (v : svalue) : bytes := data ++ repr v.
(** serialization.h:35-38 [append] *)
Definition append_data (data new_data : bytes) : bytes := data ++ new_data.
(** s << v1 << v2 ... *)
Definition add_values (data : bytes) (vs : list svalue) : bytes := fold_left add_value vs data.

(** serialization.h:81-86 [read_value], 107-111 operator>>: reads sizeof(Type) bytes at ptr (UB past the end),
    advances ptr *)
Definition read_value (data : bytes) (ptr : nat) (t : stype) : outcome (svalue * nat) :=
  if Nat.leb (ptr + sizeof t) (length data) then
    v <- unrepr t (firstn (sizeof t) (skipn ptr data)) ;; Ok (v, (ptr + sizeof t)%nat)
  else UB.
(** d >> v1 >> v2 ... *)
Fixpoint read_values (data : bytes) (ptr : nat) (ts : list stype) : outcome (list svalue * nat) :=
  match ts with
  | [] => Ok ([], ptr)
  | t :: ts =>
      '(v, ptr) <- read_value data ptr t ;;
      '(vs, ptr) <- read_values data ptr ts ;;
      Ok (v :: vs, ptr)
  end.

(** typed reads *)
Definition read_int (data : bytes) (ptr : nat) : outcome (Z * nat) :=
  '(v, ptr) <- read_value data ptr TInt ;;
  match v with VInt z => Ok (z, ptr) | _ => UB end.
Definition read_size (data : bytes) (ptr : nat) : outcome (Z * nat) :=
  '(v, ptr) <- read_value data ptr TSize ;;
  match v with VSize z => Ok (z, ptr) | _ => UB end.
Definition read_bool (data : bytes) (ptr : nat) : outcome (bool * nat) :=
  '(v, ptr) <- read_value data ptr TBool ;;
  match v with VBool b => Ok (b, ptr) | _ => UB end.
Definition read_double (data : bytes) (ptr : nat) : outcome (F64 * nat) :=
  '(v, ptr) <- read_value data ptr TDouble ;;
  match v with VDouble d => Ok (d, ptr) | _ => UB end.
