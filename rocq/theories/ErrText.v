(** What a user sees of an error: its text and its source.  Model part.

    Simplifications: a [std::io::Error], a [Utf8Error] and a message are their own texts. *)

From Verif Require Import Base.
From Coq Require Import List NArith Bool Ascii String DecimalString.
Import ListNotations.
Open Scope N_scope.
Open Scope string_scope.

(** src/error.rs:6-49 [Error], all variants with what they carry. *)
Inductive error :=
| Io (e : string)
| InvalidBoolValue (b : N)
| InvalidIntegerEncoding
| IntegerOverflow
| InvalidPath
| InvalidCharEncoding
| Utf8Error (e : string)
| Serialize (m : string)
| Deserialize (m : string)
| Conversion (m : string)
| InvalidOptimisedTag (t : N)
| OptimisedOffsetOutOfRange (offset payload_len : N)
| OptimisedOffsetsNonMonotonic
| OptimisedKeyRegionNotAscending
| OptimisedSubReaderOverrun
| BorrowedReaderContractViolation (m : string).

(** Formatting of numbers: ["{}"] of a [u32], ["{:02x}"] of a [u8]. *)
Definition dec (n : N) : string := NilEmpty.string_of_uint (N.to_uint n).
Definition hex_digit (n : N) : ascii := ascii_of_N (if (n <? 10)%N then 48 + n else 87 + n).
Definition hex2 (t : N) : string := String (hex_digit (t / 16)) (String (hex_digit (t mod 16)) "").

(** src/error.rs:51-60 [source]. *)
Definition source (e : error) : option string :=
  match e with
  | Io x => Some x
  | Utf8Error x => Some x
  | _ => None
  end.

(** src/error.rs:62-121 [Display]. *)
Definition display (e : error) : string :=
  match e with
  | Io e => "An IO error occured: " ++ e
  | InvalidBoolValue _ => "Tried to deserialize a boolean value with an invalid byte value."
  | InvalidIntegerEncoding => "Encountered invalid integer encoding."
  | IntegerOverflow => "Encountered integer which doesn't fit the target integer type during deserialization."
  | InvalidPath => "Path contained invalid UTF-8 characters."
  | InvalidCharEncoding => "Invalid character encoding."
  | Utf8Error x => "Invalid UTF-8 characters in string: " ++ x
  | Serialize e => "A serialization error occured: " ++ e
  | Deserialize e => "A deserialization error occured: " ++ e
  | Conversion e => "A user generated conversion error occured: " ++ e
  | InvalidOptimisedTag t => "Invalid optimised wire-format tag byte: 0x" ++ hex2 t ++ " (reserved size class)"
  | OptimisedOffsetOutOfRange offset payload_len =>
      "Optimised offset " ++ dec offset ++ " out of range for payload of " ++ dec payload_len ++ " bytes"
  | OptimisedOffsetsNonMonotonic => "Optimised indexed prologue offsets are not strictly monotonic"
  | OptimisedKeyRegionNotAscending => "Optimised indexed map keys are not strictly ascending"
  | OptimisedSubReaderOverrun => "Optimised varlen sub-reader length exceeds parent bytes"
  | BorrowedReaderContractViolation msg =>
      "BorrowedReader implementation violates the trait safety contract: " ++ msg
  end.

(** The error values of the rest of the model, with the texts of what they stand for: [io] for the reader's error and
    the end of input, [inp] for InvalidInput, [utf8] and [contract] for the others, [text] for messages. *)
Record texts := mkTexts { t_io : string; t_input : string; t_utf8 : string; t_contract : string; t_msg : msg -> string }.
Definition error_of (T : texts) (e : err) : error :=
  match e with
  | EIo => Io (t_io T)
  | EIoInput => Io (t_input T)
  | EInvalidBool b => InvalidBoolValue b
  | EInvalidInt => InvalidIntegerEncoding
  | EOverflow => IntegerOverflow
  | EInvalidPath => InvalidPath
  | EInvalidChar => InvalidCharEncoding
  | EUtf8 => Utf8Error (t_utf8 T)
  | ESerialize m => Serialize (t_msg T m)
  | EDeserialize m => Deserialize (t_msg T m)
  | EConversion m => Conversion (t_msg T m)
  | EInvalidTag t => InvalidOptimisedTag t
  | EOffsetRange o p => OptimisedOffsetOutOfRange o p
  | ENonMonotonic => OptimisedOffsetsNonMonotonic
  | EKeysNotAscending => OptimisedKeyRegionNotAscending
  | ESubReaderOverrun => OptimisedSubReaderOverrun
  | EBorrowedContract => BorrowedReaderContractViolation (t_contract T)
  end.
