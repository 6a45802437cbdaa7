(** The text of the source files of /repo, copied (a double quote is written twice in Coq), and the
    program they make. *)
From Verif Require Import Base ModelRust ModelInterp.
Local Open Scope string_scope.

(** src/util/bitfield.rs, without its tests *)
Definition bitfield_rs : string := "use super::ue2common::round_up_n;
use std::ops::{BitAnd, BitAndAssign, BitOr, BitOrAssign, BitXor, BitXorAssign, Not};

const BLOCK_SIZE: u8 = 64; // size_of::<BlockType>() * 8;
const ALL_ONES: u64 = !0;

/// Bitset class for 256 elements with `find_first` and `find_next` operations.
#[derive(Clone, Copy, Debug, Default, Eq, Hash, Ord, PartialOrd, PartialEq)]
pub(crate) struct BitField256 {
    bits: [u64; 4],
}

impl BitField256 {
    /// Resets all bits.
    pub(crate) fn reset_all(&mut self) {
        self.bits[0] = 0;
        self.bits[1] = 0;
        self.bits[2] = 0;
        self.bits[3] = 0;
    }

    /// Sets all bits.
    pub(crate) fn set_all(&mut self) {
        self.bits[0] = ALL_ONES;
        self.bits[1] = ALL_ONES;
        self.bits[2] = ALL_ONES;
        self.bits[3] = ALL_ONES;
    }

    /// Resets bit `n`.
    pub(crate) fn reset(&mut self, n: u8) {
        self.bits[Self::get_word(n) as usize] &= !Self::mask_bit(n);
    }

    /// Sets bit `n`.
    pub(crate) fn set(&mut self, n: u8) {
        self.bits[Self::get_word(n) as usize] |= Self::mask_bit(n);
    }

    /// Tests bit `n`.
    pub(crate) fn test(&self, n: u8) -> bool {
        (self.bits[Self::get_word(n) as usize] & Self::mask_bit(n)) != 0
    }

    /// Flips all bits.
    pub(crate) fn flip_all(&mut self) {
        self.bits[0] = !self.bits[0];
        self.bits[1] = !self.bits[1];
        self.bits[2] = !self.bits[2];
        self.bits[3] = !self.bits[3];
    }

    /// Flips bit `n`.
    pub(crate) fn flip(&mut self, n: u8) {
        self.bits[Self::get_word(n) as usize] ^= Self::mask_bit(n);
    }

    /// Switches on the bits in the range `from..=to`.
    ///
    /// # Panics
    ///
    /// Panics if `from > to`.
    pub(crate) fn set_range(&mut self, from: u8, to: u8) {
        assert!(from <= to, ""`from` is greater than `to`"");

        if from / BLOCK_SIZE == to / BLOCK_SIZE {
            // Small case, our indices are in the same block.
            let mut block = ALL_ONES << (from % BLOCK_SIZE);
            if to % BLOCK_SIZE != BLOCK_SIZE - 1 {
                block &= Self::mask_bit(to + 1) - 1;
            }
            self.bits[(from / BLOCK_SIZE) as usize] |= block;
            return;
        }

        // Large case, work in block units. Write a partial mask, then a
        // run of all-ones blocks, then a partial mask at the end.
        let mut i = from as usize;
        if i % BLOCK_SIZE as usize != 0 {
            let block = ALL_ONES << (i % BLOCK_SIZE as usize);
            self.bits[i / BLOCK_SIZE as usize] |= block;
            i = round_up_n(i, BLOCK_SIZE);
        }

        while i + BLOCK_SIZE as usize <= to as usize + 1 {
            self.bits[i / BLOCK_SIZE as usize] = ALL_ONES;
            i += BLOCK_SIZE as usize;
        }

        if i <= to as usize {
            debug_assert!(to as usize - i + 1 < BLOCK_SIZE as usize);
            self.bits[i / BLOCK_SIZE as usize] |= Self::mask_bit(to.wrapping_add(1)) - 1;
        }
    }

    /// Returns number of bits set on.
    pub(crate) fn count(&self) -> u32 {
        let mut sum = 0;
        sum += self.bits[0].count_ones();
        sum += self.bits[1].count_ones();
        sum += self.bits[2].count_ones();
        sum += self.bits[3].count_ones();
        sum
    }

    /// Returns `true` if no bit is set.
    pub(crate) fn none(&self) -> bool {
        self.bits[0] == 0 && self.bits[1] == 0 && self.bits[2] == 0 && self.bits[3] == 0
    }

    /// Retruns `true` if any bit is set.
    #[allow(dead_code)]
    pub(crate) fn any(&self) -> bool {
        !self.none()
    }

    /// Returns `true` if all bits are set.
    #[allow(dead_code)]
    #[allow(dead_code)]
    pub(crate) fn all(&self) -> bool {
        self.bits[0] == ALL_ONES
            && self.bits[1] == ALL_ONES
            && self.bits[2] == ALL_ONES
            && self.bits[3] == ALL_ONES
    }

    /// Returns first bit set.
    pub(crate) fn find_first(&self) -> Option<u8> {
        for (i, &bits) in self.bits.iter().enumerate() {
            if bits != 0 {
                #[allow(clippy::cast_possible_truncation)]
                return Some(i as u8 * BLOCK_SIZE + bits.trailing_zeros() as u8);
            }
        }
        None
    }

    /// Returns last bit set.
    #[allow(dead_code)]
    pub(crate) fn find_last(&self) -> Option<u8> {
        for (i, &bits) in self.bits.iter().enumerate().rev() {
            if bits != 0 {
                #[allow(clippy::cast_possible_truncation)]
                return Some(i as u8 * BLOCK_SIZE + (BLOCK_SIZE - 1) - bits.leading_zeros() as u8);
            }
        }
        None
    }

    /// Returns next bit set.
    pub(crate) fn find_next(&self, last: u8) -> Option<u8> {
        let mut last_i = Self::get_word(last);
        let mut last_word = self.bits[last_i as usize];

        if last % BLOCK_SIZE != BLOCK_SIZE - 1 {
            last_word &= ALL_ONES << (last % BLOCK_SIZE + 1);

            if last_word != 0 {
                #[allow(clippy::cast_possible_truncation)]
                return Some(last_i * BLOCK_SIZE + last_word.trailing_zeros() as u8);
            }
        }

        last_i += 1;
        for (i, &bits) in self.bits[last_i as usize..].iter().enumerate() {
            if bits != 0 {
                #[allow(clippy::cast_possible_truncation)]
                return Some((last_i + i as u8) * BLOCK_SIZE + bits.trailing_zeros() as u8);
            }
        }

        None
    }

    /// Returns (zero-based) `n`-th bit set.
    #[allow(dead_code)]
    pub(crate) fn find_nth(&self, n: u8) -> Option<u8> {
        let mut sum = 0;
        for (i, &bits) in self.bits.iter().enumerate() {
            let mut block = bits;
            let after_sum = sum + block.count_ones();
            if after_sum > n.into() {
                // block contains the n-th bit.
                for _ in sum..n.into() {
                    debug_assert!(block > 0);
                    block &= block - 1;
                }
                debug_assert!(block > 0);
                #[allow(clippy::cast_possible_truncation)]
                let bit = i as u8 * BLOCK_SIZE + block.trailing_zeros() as u8;
                debug_assert!(self.test(bit));
                return Some(bit);
            }
            sum = after_sum;
        }

        debug_assert!(self.count() <= n.into());
        None
    }

    fn get_word(n: u8) -> u8 {
        n / BLOCK_SIZE
    }

    fn mask_bit(n: u8) -> u64 {
        1_u64 << (n % BLOCK_SIZE)
    }
}

impl BitAnd for BitField256 {
    type Output = Self;

    #[inline]
    fn bitand(self, rhs: Self) -> Self::Output {
        let mut rhs = rhs;
        rhs &= self;
        rhs
    }
}

impl BitAndAssign for BitField256 {
    #[inline]
    fn bitand_assign(&mut self, a: Self) {
        self.bits[0] &= a.bits[0];
        self.bits[1] &= a.bits[1];
        self.bits[2] &= a.bits[2];
        self.bits[3] &= a.bits[3];
    }
}

impl BitOr for BitField256 {
    type Output = Self;

    #[inline]
    fn bitor(self, rhs: Self) -> Self::Output {
        let mut rhs = rhs;
        rhs |= self;
        rhs
    }
}

impl BitOrAssign for BitField256 {
    #[inline]
    fn bitor_assign(&mut self, a: Self) {
        self.bits[0] |= a.bits[0];
        self.bits[1] |= a.bits[1];
        self.bits[2] |= a.bits[2];
        self.bits[3] |= a.bits[3];
    }
}

impl BitXor for BitField256 {
    type Output = Self;

    #[inline]
    fn bitxor(self, rhs: Self) -> Self::Output {
        let mut rhs = rhs;
        rhs ^= self;
        rhs
    }
}

impl BitXorAssign for BitField256 {
    #[inline]
    fn bitxor_assign(&mut self, a: Self) {
        self.bits[0] ^= a.bits[0];
        self.bits[1] ^= a.bits[1];
        self.bits[2] ^= a.bits[2];
        self.bits[3] ^= a.bits[3];
    }
}

impl Not for BitField256 {
    type Output = Self;

    #[inline]
    fn not(mut self) -> Self::Output {
        self.bits[0] = !self.bits[0];
        self.bits[1] = !self.bits[1];
        self.bits[2] = !self.bits[2];
        self.bits[3] = !self.bits[3];
        self
    }
}

".

(** src/util/charreach.rs, without its tests *)
Definition charreach_rs : string := "use super::bitfield::BitField256;
use super::compare::{mytolower, mytoupper, ourisalpha};
use super::unicode_def::UTF_CONT_MAX;
use std::fmt;
use std::ops::{BitAnd, BitAndAssign, BitOr, BitOrAssign, BitXor, BitXorAssign, Not};

/// Character reachability.
///
/// This is a simple (but hopefully fast) struct for representing 8-bit
/// character reachability, along with a bunch of useful operations.
#[derive(Copy, Clone, Debug, Default, Eq, Hash, PartialEq, PartialOrd, Ord)]
pub(crate) struct CharReach {
    /// Underlying storage.
    bits: BitField256,
}

impl CharReach {
    /// Constructs a character class containing a single 8-bit character.
    #[must_use]
    pub(crate) fn from_char(c: u8) -> Self {
        let mut cr = Self::default();
        cr.set(c);
        cr
    }

    /// Constructs a character class representing a contiguous range of 8-bit
    /// characters, inclusively.
    ///
    /// # Panics
    ///
    /// Panics if `from > to`.
    #[allow(dead_code)]
    #[must_use]
    pub(crate) fn from_range(from: u8, to: u8) -> Self {
        let mut cr = Self::default();
        cr.set_range(from, to);
        cr
    }

    /// Constructs a character class based on the set of chars in a byte slice.
    #[allow(dead_code)]
    #[must_use]
    pub(crate) fn from_bytes(bytes: &[u8]) -> Self {
        let mut cr = Self::default();
        cr.set_bytes(bytes);
        cr
    }

    /// Constructs a character class with complete reachability (a ""dot"").
    #[allow(dead_code)]
    #[must_use]
    pub(crate) fn dot() -> Self {
        Self::from_range(0, 255)
    }

    /// Resets all bits.
    #[allow(dead_code)]
    pub(crate) fn reset_all(&mut self) {
        self.bits.reset_all();
    }

    /// Sets all bits.
    pub(crate) fn set_all(&mut self) {
        self.bits.set_all();
    }

    /// Resets bit for `c`.
    #[allow(dead_code)]
    pub(crate) fn reset(&mut self, c: u8) {
        self.bits.reset(c);
    }

    /// Sets bit for `c`.
    pub(crate) fn set(&mut self, c: u8) {
        self.bits.set(c);
    }

    /// Tests bit for `c`.
    #[must_use]
    pub(crate) fn test(&self, c: u8) -> bool {
        self.bits.test(c)
    }

    /// Flips all bits.
    #[allow(dead_code)]
    pub(crate) fn flip_all(&mut self) {
        self.bits.flip_all();
    }

    /// Flips bit for `c`.
    #[allow(dead_code)]
    pub(crate) fn flip(&mut self, c: u8) {
        self.bits.flip(c);
    }

    /// Switches on the bits in the range `from..=to`.
    ///
    /// # Panics
    ///
    /// Panics if `from > to`.
    pub(crate) fn set_range(&mut self, from: u8, to: u8) {
        self.bits.set_range(from, to)
    }

    /// Switches on the bits corresponding to the characters in `bytes`.
    pub(crate) fn set_bytes(&mut self, bytes: &[u8]) {
        for &b in bytes {
            self.set(b);
        }
    }

    /// Returns number of bits set on.
    #[must_use]
    pub(crate) fn count(&self) -> u32 {
        self.bits.count()
    }

    /// Returns `true` if no bit is set.
    #[allow(dead_code)]
    #[must_use]
    pub(crate) fn none(&self) -> bool {
        self.bits.none()
    }

    /// Retruns `true` if any bit is set.
    #[allow(dead_code)]
    #[must_use]
    pub(crate) fn any(&self) -> bool {
        self.bits.any()
    }

    /// Returns `true` if all bits are set.
    #[allow(dead_code)]
    #[must_use]
    pub(crate) fn all(&self) -> bool {
        self.bits.all()
    }

    /// Returns first bit set.
    #[must_use]
    pub(crate) fn find_first(&self) -> Option<u8> {
        self.bits.find_first()
    }

    /// Returns last bit set.
    #[allow(dead_code)]
    #[must_use]
    pub(crate) fn find_last(&self) -> Option<u8> {
        self.bits.find_last()
    }

    /// Returns next bit set
    #[must_use]
    pub(crate) fn find_next(&self, last: u8) -> Option<u8> {
        self.bits.find_next(last)
    }

    /// Returns (zero-based) `n`-th bit set.
    #[allow(dead_code)]
    #[must_use]
    pub(crate) fn find_nth(&self, n: u8) -> Option<u8> {
        self.bits.find_nth(n)
    }

    /// Checks if this only contain bits representing alphabet characters.
    #[allow(dead_code)]
    #[must_use]
    pub(crate) fn is_alphabetic(&self) -> bool {
        if self.none() {
            return false;
        }
        let mut next = self.find_first();
        while let Some(pos) = next {
            if !ourisalpha(pos) {
                return false;
            }
            next = self.find_next(pos);
        }
        true
    }

    /// Checks if this represents an uppercase/lowercase pair.
    #[must_use]
    pub(crate) fn is_caseless_char(&self) -> bool {
        if self.count() != 2 {
            return false;
        }
        let first = self.find_first().expect(""should have two bits set"");
        let second = self.find_next(first).expect(""should have two bits set"");
        first == mytoupper(second)
    }

    /// Checks if this represents a cheapskate caseless set.
    #[allow(dead_code)]
    #[must_use]
    pub(crate) fn is_bit5_insensitive(&self) -> bool {
        let mut next = self.find_first();
        while let Some(pos) = next {
            if !self.test(pos ^ 0x20) {
                return false;
            }
            next = self.find_next(pos);
        }
        true
    }

    /// Checks if this character class is a subset of `rhs`.
    #[allow(dead_code)]
    #[must_use]
    pub(crate) fn is_subset_of(&self, rhs: &Self) -> bool {
        (self.bits & rhs.bits) == self.bits
    }

    /// Checks if there is a non-empty intersection between this and `rhs`.
    #[allow(dead_code)]
    #[must_use]
    pub(crate) fn overlaps(&self, rhs: &Self) -> bool {
        (*self & *rhs).any()
    }

    /// Checks if this character class is within the ASCII range.
    #[allow(dead_code)]
    #[must_use]
    pub(crate) fn is_ascii(&self) -> bool {
        (*self & !Self::from_range(0x00, 0x7f)).none()
    }

    /// Check is this character class represents the first bytes of multi-byte
    /// UTF-8 characters.
    #[allow(dead_code)]
    #[must_use]
    pub(crate) fn is_utf8_start(&self) -> bool {
        (*self & Self::from_range(0x00, UTF_CONT_MAX)).none()
    }
}

impl fmt::Display for CharReach {
    fn fmt(&self, f: &mut fmt::Formatter<'_>) -> fmt::Result {
        let mut s = String::new();
        let mut next = self.find_first();
        while let Some(pos) = next {
            s.push(pos as char);
            next = self.find_next(pos);
        }
        write!(f, ""{}"", s)
    }
}

impl BitAnd for CharReach {
    type Output = Self;

    #[inline]
    #[must_use]
    fn bitand(self, rhs: Self) -> Self::Output {
        let mut rhs = rhs;
        rhs &= self;
        rhs
    }
}

impl BitAndAssign for CharReach {
    #[inline]
    fn bitand_assign(&mut self, a: Self) {
        self.bits &= a.bits;
    }
}

impl BitOr for CharReach {
    type Output = Self;

    #[inline]
    #[must_use]
    fn bitor(self, rhs: Self) -> Self::Output {
        let mut rhs = rhs;
        rhs |= self;
        rhs
    }
}

impl BitOrAssign for CharReach {
    #[inline]
    fn bitor_assign(&mut self, rhs: Self) {
        self.bits |= rhs.bits;
    }
}

impl BitXor for CharReach {
    type Output = Self;

    #[inline]
    #[must_use]
    fn bitxor(self, rhs: Self) -> Self::Output {
        let mut rhs = rhs;
        rhs ^= self;
        rhs
    }
}

impl BitXorAssign for CharReach {
    #[inline]
    fn bitxor_assign(&mut self, rhs: Self) {
        self.bits ^= rhs.bits;
    }
}

impl Not for CharReach {
    type Output = Self;

    #[inline]
    #[must_use]
    fn not(mut self) -> Self::Output {
        self.bits = !self.bits;
        self
    }
}

pub(crate) fn make_caseless(cr: &mut CharReach) {
    for c in b'A'..=b'Z' {
        if cr.test(c) || cr.test(mytolower(c)) {
            cr.set(c);
            cr.set(mytolower(c));
        }
    }
}

/// Fills a bitvector with the contents of the given `CharReach`.
///
/// # Panics
///
/// Panics if `bits` has less than 32 elements.
#[allow(dead_code)]
pub(crate) fn fill_bitvector(cr: &CharReach, bits: &mut [u8]) {
    for b in bits[0..32].iter_mut() {
        *b = 0;
    }
    let mut next = cr.find_first();
    while let Some(pos) = next {
        bits[(pos / 8) as usize] |= 1 << (pos & 8);
        next = cr.find_next(pos);
    }
}

/// Generates and- and compare-masks for checking the char reach.
///
/// Any character c in `cr` will satisfy `(c & and_mask) == cmp_mask`, where
/// `(and_mask, cmp_mask)` is the return value of this function.
///
/// Note: characters not in `cr` may also pass the and/cmp checks.
#[allow(dead_code)]
#[must_use]
pub(crate) fn make_and_cmp_mask(cr: &CharReach) -> (u8, u8) {
    let mut lo = 0xff;
    let mut hi = 0x00;

    let mut next = cr.find_first();
    while let Some(pos) = next {
        hi |= pos;
        lo &= pos;
        next = cr.find_next(pos);
    }

    let and_mask = !(lo ^ hi);
    let cmp_mask = lo;
    (and_mask, cmp_mask)
}

".

(** src/util/compare.rs *)
Definition compare_rs : string := "pub fn myisupper(c: u8) -> bool {
    (b'A'..=b'Z').contains(&c)
}

pub fn myislower(c: u8) -> bool {
    (b'a'..=b'z').contains(&c)
}

#[must_use]
pub fn mytolower(c: u8) -> u8 {
    if myisupper(c) {
        c + 0x20
    } else {
        c
    }
}

#[must_use]
pub fn mytoupper(c: u8) -> u8 {
    if myislower(c) {
        c - 0x20
    } else {
        c
    }
}

/// Returns `true` if this character hash different uppercase and lowercase forms.
#[must_use]
pub fn ourisalpha(c: u8) -> bool {
    mytolower(c) != mytoupper(c)
}
".

(** src/util/ue2common.rs *)
Definition ue2common_rs : string := "use std::ops::{Add, BitAnd};

pub type S64a = i64;

/// Report identifier.
///
/// Used for internal IDs and external IDs (those reported on match).
pub type ReportId = u32;

/// Aligns to the next 16-byte boundary.
#[allow(dead_code)]
#[inline]
pub fn round_up_16<T>(a: T) -> T
where
    T: Add + BitAnd + From<u8>,
    <T as Add>::Output: Into<T>,
    <T as BitAnd>::Output: Into<T>,
{
    ((a + 0xf_u8.into()).into() & (!0xf_u8).into()).into()
}

/// Aligns to the previous 16-byte boundary.
#[allow(dead_code)]
#[inline]
pub fn round_down_16<T>(a: T) -> T
where
    T: BitAnd + From<u8>,
    <T as BitAnd>::Output: Into<T>,
{
    (a & (!0xf_u8).into()).into()
}

/// Aligns to the next n-byte boundary.
#[inline]
pub fn round_up_n<T>(a: T, n: u8) -> T
where
    T: Add + BitAnd + From<u8>,
    <T as Add>::Output: Into<T>,
    <T as BitAnd>::Output: Into<T>,
{
    ((a + (n - 1).into()).into() & (!(n - 1)).into()).into()
}

/// Aligns to the previous n-byte boundary.
#[allow(dead_code)]
#[inline]
pub fn round_down_n<T>(a: T, n: u8) -> T
where
    T: BitAnd + From<u8>,
    <T as BitAnd>::Output: Into<T>,
{
    (a & (!(n - 1)).into()).into()
}

/// Aligns to a cache line.
#[allow(dead_code)]
#[inline]
pub fn round_up_cache_line<T>(a: T) -> T
where
    T: Add + BitAnd + From<u8>,
    <T as Add>::Output: Into<T>,
    <T as BitAnd>::Output: Into<T>,
{
    ((a + 0x3f_u8.into()).into() & (!0x3f_u8).into()).into()
}
".

(** src/util/unicode_def.rs *)
Definition unicode_def_rs : string := "pub const UTF_TWO_BYTE_HEADER: u8 = 0xc0; // 110x_xxxx

pub const UTF_CONT_MAX: u8 = UTF_TWO_BYTE_HEADER - 1;
".

(** src/util/dump_charclass.rs *)
Definition dump_charclass_rs : string := "//! Dump code for character classes (expressed as `CharReach` objects).

use crate::util::CharReach;
use std::fmt::{Error, Write};

#[derive(Clone, Copy, Debug, PartialEq)]
pub(crate) enum CcOutput {
    /// Unescaped text output
    Text,
    /// Escaped DOT label output
    Dot,
}

// These characters must always be escaped.
const ESCAPED: [u8; 5] = *b""^-[]."";
const DOT_SINGLE_ESCAPED: [u8; 2] = *br#""""'""#;

fn describe_char<W: Write>(f: &mut W, c: u8, out_type: CcOutput) -> Result<(), Error> {
    let backslash = if out_type == CcOutput::Dot {
        r#""\\""#
    } else {
        r#""\""#
    };

    if 0x21 <= c && c < 0x7F && c != b'\\' {
        if ESCAPED.contains(&c) {
            f.write_str(backslash)?;
            f.write_char(c.into())
        } else if out_type == CcOutput::Dot && DOT_SINGLE_ESCAPED.contains(&c) {
            f.write_char('\\')?;
            f.write_char(c.into())
        } else {
            f.write_char(c.into())
        }
    } else if c == 0x09 {
        f.write_str(backslash)?;
        f.write_char('t')
    } else if c == 0x0a {
        f.write_str(backslash)?;
        f.write_char('n')
    } else if c == 0x0d {
        f.write_str(backslash)?;
        f.write_char('r')
    } else {
        f.write_str(&format!(""{}x{:2x}"", backslash, c))
    }
}

/// Prints a contiguous range of byte characters.
///
/// # Panics
///
/// Panics if `c1 > c2`.
fn describe_range<W: Write>(f: &mut W, c1: u8, c2: u8, out_type: CcOutput) -> Result<(), Error> {
    if c1 == c2 {
        describe_char(f, c1, out_type)
    } else if c2 - c1 < 4 {
        // Render as individual chars.
        let mut c1 = c1;
        loop {
            describe_char(f, c1, out_type)?;
            c1 += 1;
            if c1 > c2 {
                break;
            }
        }
        Ok(())
    } else {
        // Range
        describe_char(f, c1, out_type)?;
        f.write_char('-')?;
        describe_char(f, c2, out_type)
    }
}

fn extract_mnemonic<W: Write>(
    f: &mut W,
    cr: &CharReach,
    out_type: CcOutput,
) -> Result<Option<CharReach>, Error> {
    let backslash = if out_type == CcOutput::Dot {
        r#""\\""#
    } else {
        r#""\""#
    };

    // \w (word characters: any letter, digit, or underscore)
    let words =
        CharReach::from_bytes(b""_0123456789abcdefghijklmnopqrstuvwxyzABCDEFGHIJKLMNOPQRSTUVWYXZ"");
    if words.is_subset_of(cr) {
        f.write_str(backslash)?;
        f.write_char('w')?;
        return Ok(Some(*cr & !words));
    }

    // \d (digits)
    let digits = CharReach::from_bytes(b""0123456789"");
    if digits.is_subset_of(cr) {
        f.write_str(backslash)?;
        f.write_char('d')?;
        return Ok(Some(*cr & !digits));
    }

    // \s (whitespace)
    let whitespace = CharReach::from_bytes(b""\x09\x0a\x0b\x0c\x0d\x20"");
    if whitespace.is_subset_of(cr) {
        f.write_str(backslash)?;
        f.write_char('s')?;
        return Ok(Some(*cr & !whitespace));
    }

    Ok(None)
}

fn contiguous_range(cr: &CharReach) -> Option<(u8, u8)> {
    let first = if let Some(pos) = cr.find_first() {
        pos
    } else {
        return None;
    };
    let mut last = first;
    while let Some(c) = cr.find_next(last) {
        if c != last + 1 {
            return None;
        }
        last = c;
    }
    Some((first, last))
}

fn describe_class_int<W: Write>(
    f: &mut W,
    incr: &CharReach,
    max_length: usize,
    out_type: CcOutput,
) -> Result<usize, Error> {
    // Approx size of output
    let mut i = 0;
    // One we can break
    let mut cr = incr.clone();

    // If we can be rendered as a single range, do it.
    if let Some((first, last)) = contiguous_range(&cr) {
        describe_range(f, first, last, out_type)?;
        return Ok(2);
    }

    // Extract any mnemonics.
    while let Some(remaining) = extract_mnemonic(f, &cr, out_type)? {
        i += 1;
        if i == max_length {
            f.write_str(""...]"")?;
            return Ok(max_length);
        }
        cr = remaining;
    }

    if cr.none() {
        // all mnemonics
        return Ok(i);
    }

    // Render character class as a series of ranges.
    if let Some(mut c_start) = cr.find_first() {
        let mut c_last = c_start;
        while let Some(c) = cr.find_next(c_last) {
            if c != c_last + 1 {
                describe_range(f, c_start, c_last, out_type)?;
                c_start = c;
                i += 1;
                if i == max_length {
                    f.write_str(""...]"")?;
                    return Ok(max_length);
                }
            }
            c_last = c;
        }
        if c_last == 0xff {
            describe_range(f, c_start, c_last, out_type)?;
            i += 1;
        }
    }
    Ok(i)
}

pub(crate) fn describe_class<W: Write>(
    f: &mut W,
    incr: &CharReach,
    max_length: usize,
    out_type: CcOutput,
) -> Result<(), Error> {
    if incr.all() {
        return f.write_str(""<any>"");
    }

    if incr.none() {
        return f.write_str(""<empty>"");
    }

    if incr.count() == 1 {
        return describe_char(f, incr.find_first().expect(""should be available""), out_type);
    }
    if (!*incr).count() == 1 {
        f.write_str(""[^"")?;
        describe_char(
            f,
            (!*incr).find_first().expect(""should be available""),
            out_type,
        )?;
        return f.write_char(']');
    }

    // build up a normal string and a negated one, and see which is shorter
    let mut out = String::new();
    let out_count = describe_class_int(&mut out, incr, max_length, out_type)?;

    let mut neg = String::new();
    describe_class_int(&mut neg, &!*incr, max_length, out_type)?;

    if out.len() <= neg.len() {
        if out_count > 1 {
            f.write_char('[')?;
            f.write_str(&out)?;
            f.write_char(']')
        } else {
            f.write_str(&out)
        }
    } else {
        f.write_str(&format!(""[^{}]"", neg))
    }
}
".

(** src/util/compile_error.rs *)
Definition compile_error_rs : string := "use std::fmt;

/// Error thrown by the compiler.
#[derive(Debug)]
pub struct CompileError {
    kind: ErrorKind,

    /// Reason for the error.
    pub(crate) reason: String,

    /// The index of the expression referred to.
    index: Option<u32>,
}

/// A list specifying categories of compile error.
#[derive(Debug)]
pub enum ErrorKind {
    /// Error thrown internally by the Parser interface.
    Parse,
    /// Error thrown internally by the Parser interface with the specific location.
    LocatedParse,
    /// Error thrown by the compiler when an arbitrary resource limit is exceeded.
    ResourceLimit,
    /// Any compile error not part of this list.
    Other,
}

impl CompileError {
    pub(crate) fn new<T: Into<String>>(kind: ErrorKind, why: T) -> Self {
        Self {
            kind,
            reason: why.into(),
            index: None,
        }
    }

    pub(crate) fn with_index<T: Into<String>>(index: u32, why: T) -> Self {
        Self {
            kind: ErrorKind::Other,
            reason: why.into(),
            index: Some(index),
        }
    }

    pub(crate) fn set_expression_index(&mut self, index: u32) {
        debug_assert!(self.index.is_none());
        self.index = Some(index);
    }
}

impl fmt::Display for CompileError {
    fn fmt(&self, f: &mut fmt::Formatter) -> fmt::Result {
        match self.index {
            Some(index) => write!(f, ""{} in expression {}"", self.reason, index),
            None => write!(f, ""{}"", self.reason),
        }
    }
}
".

(** src/parser/parser_util.rs *)
Definition parser_util_rs : string := "use crate::Flags;

#[allow(clippy::struct_excessive_bools)]
#[derive(Clone, Copy, Debug, Default)]
pub(crate) struct ParseMode {
    pub(crate) caseless: bool,
    pub(crate) dotall: bool,
    pub(crate) ignore_space: bool,
    pub(crate) multiline: bool,
    pub(crate) ucp: bool,
    pub(crate) utf8: bool,
}

impl ParseMode {
    pub(crate) fn new(flags: Flags) -> Self {
        Self {
            caseless: flags.contains(Flags::CASELESS),
            dotall: flags.contains(Flags::DOTALL),
            ignore_space: false,
            multiline: flags.contains(Flags::MULTILINE),
            ucp: flags.contains(Flags::UCP),
            utf8: flags.contains(Flags::UTF8),
        }
    }
}
".

(** src/parser/ascii_component_class.rs *)
Definition ascii_component_class_rs : string := "use crate::parser::{ConstComponentVisitor, GlushkovBuildState, ParseMode};
use crate::util::{make_caseless, CharReach};

/// Character classes and their mnemonics.
#[derive(Debug)]
pub(crate) struct AsciiComponentClass {
    mode: ParseMode,
    pub(in crate::parser) cr: CharReach,
}

impl AsciiComponentClass {
    pub(in crate::parser) fn new(mode: ParseMode) -> Self {
        Self {
            mode,
            cr: CharReach::default(),
        }
    }

    pub(in crate::parser) fn add(&mut self, c: u8) {
        let mut ncr = CharReach::from_char(c);
        if self.mode.caseless {
            make_caseless(&mut ncr);
        }

        self.cr |= ncr;
    }

    pub(in crate::parser) fn note_positions(&mut self, bs: &mut GlushkovBuildState) {
        let builder = bs.get_builder_mut();
        let position = builder.make_position();

        builder.add_char_reach(position, self.cr);
    }
}

pub(in crate::parser) fn walk_ascii_component_class<V: ConstComponentVisitor>(
    v: &mut V,
    c: &AsciiComponentClass,
) -> Result<(), V::Error> {
    v.pre_ascii_component_class(c)?;
    v.during_ascii_component_class(c);
    v.post_ascii_component_class(c);
    Ok(())
}
".

(** src/parser/component_class.rs *)
Definition component_class_rs : string := "use super::ascii_component_class::{walk_ascii_component_class, AsciiComponentClass};
use super::{ConstComponentVisitor, GlushkovBuildState, ParseMode};
use crate::util::compile_error::{CompileError, ErrorKind};

pub(in crate::parser) fn get_component_class(mode: ParseMode) -> ComponentClass {
    ComponentClass::Ascii(AsciiComponentClass::new(mode))
}

/// Generates a component for a single literal character, possibly in caseless
/// mode.
pub(in crate::parser) fn get_literal_component_class(
    c: char,
    nocase: bool,
) -> Result<ComponentClass, CompileError> {
    let mode = ParseMode {
        caseless: nocase,
        ..ParseMode::default()
    };
    let mut cc = get_component_class(mode);
    cc.add(c)?;
    Ok(cc)
}

#[derive(Debug)]
pub(crate) enum ComponentClass {
    Ascii(AsciiComponentClass),
}

impl ComponentClass {
    fn add(&mut self, c: char) -> Result<(), CompileError> {
        match self {
            Self::Ascii(cc) => {
                if c > '\u{ff}' {
                    return Err(CompileError::new(
                        ErrorKind::LocatedParse,
                        ""Hexadecimal value is greater than \\xFF"".to_string(),
                    ));
                }
                cc.add(c as u8)
            }
        }
        Ok(())
    }

    /// Informs the Glushkov build process of the positions used by this component.
    pub(in crate::parser) fn note_positions(&mut self, bs: &mut GlushkovBuildState) {
        match self {
            Self::Ascii(c) => c.note_positions(bs),
        }
    }
}

/// Applies the given const visitor functor.
pub(crate) fn walk_component_class<V: ConstComponentVisitor>(
    v: &mut V,
    c: &ComponentClass,
) -> Result<(), V::Error> {
    match c {
        ComponentClass::Ascii(c) => walk_ascii_component_class(v, c),
    }
}
".

(** src/parser/component_alternation.rs *)
Definition component_alternation_rs : string := "use super::component_sequence::walk_component_sequence;
use super::{ComponentSequence, ConstComponentVisitor, GlushkovBuildState};

#[derive(Debug, Default)]
pub(crate) struct ComponentAlternation {
    children: Vec<ComponentSequence>,
}

impl ComponentAlternation {
    pub(super) fn append(&mut self, component: ComponentSequence) {
        self.children.push(component);
    }

    /// Informs the Glushkov build process of the positions used by this component.
    pub(super) fn note_positions(&mut self, bs: &mut GlushkovBuildState) {
        for c in &mut self.children {
            c.note_positions(bs);
        }
    }
}

pub(super) fn walk_component_alternation<V: ConstComponentVisitor>(
    v: &mut V,
    c: &ComponentAlternation,
) -> Result<(), V::Error> {
    v.pre_component_alternation(c)?;

    let mut child_iter = c.children.iter().peekable();
    while let Some(child) = child_iter.next() {
        walk_component_sequence(v, child)?;

        if child_iter.peek().is_some() {
            v.during_component_alternation(c);
        }
    }

    v.post_component_alternation(c);

    Ok(())
}
".

(** src/parser/component_sequence.rs *)
Definition component_sequence_rs : string := "use super::{
    walk_component, Component, ComponentAlternation, ConstComponentVisitor, GlushkovBuildState,
};
use std::mem;

#[derive(Debug, Default)]
pub(crate) struct ComponentSequence {
    children: Vec<Component>,
    alternation: Option<ComponentAlternation>,

    pub(super) capture_index: Option<u32>,
    #[allow(dead_code)]
    pub(super) capture_name: Option<String>,
}

impl ComponentSequence {
    pub(super) fn add_alternation(&mut self) {
        if self.alternation.is_none() {
            self.alternation = Some(ComponentAlternation::default());
        }
        let alternation = self.alternation.as_mut().expect(""Some"");

        let mut seq = Self::default();
        mem::swap(&mut self.children, &mut seq.children);
        alternation.append(seq);
    }

    pub(in crate::parser) fn finalize(&mut self) {
        if self.alternation.is_some() {
            self.add_alternation();
            debug_assert!(self.children.is_empty());
            let alternation = self.alternation.take().expect(""Some"");
            self.children.push(Component::Alternation(alternation));
        }
    }

    pub(in crate::parser) fn add_component(&mut self, comp: Component) {
        self.children.push(comp);
    }

    /// Informs the Glushkov build process of the positions used by this component.
    pub(in crate::parser) fn note_positions(&mut self, bs: &mut GlushkovBuildState) {
        for c in &mut self.children {
            c.note_positions(bs);
        }
    }

    #[cfg(test)]
    pub(super) fn children(&self) -> &Vec<Component> {
        &self.children
    }
}

pub(in crate::parser) fn walk_component_sequence<V: ConstComponentVisitor>(
    v: &mut V,
    c: &ComponentSequence,
) -> Result<(), V::Error> {
    debug_assert!(c.alternation.is_none()); // Sequence must be finalized first.

    v.pre_component_sequence(c)?;

    let mut child_iter = c.children.iter().peekable();
    while let Some(child) = child_iter.next() {
        walk_component(v, child)?;

        if child_iter.peek().is_some() {
            v.during_component_sequence(c);
        }
    }

    v.post_component_sequence(c);

    Ok(())
}
".

(** src/parser/component.rs *)
Definition component_rs : string := "use super::component_alternation::walk_component_alternation;
use super::component_class::walk_component_class;
use super::component_sequence::walk_component_sequence;
use super::GlushkovBuildState;
use super::{ComponentAlternation, ComponentClass, ComponentSequence, ConstComponentVisitor};

/// A component for a regular expression parse tree.
#[derive(Debug)]
pub(crate) enum Component {
    Alternation(ComponentAlternation),
    Class(ComponentClass),
    Sequence(ComponentSequence),
}

impl Component {
    /// Informs the Glushkov build process of the positions used by this component.
    pub(crate) fn note_positions(&mut self, bs: &mut GlushkovBuildState) {
        match self {
            Self::Alternation(c) => c.note_positions(bs),
            Self::Class(c) => c.note_positions(bs),
            Self::Sequence(c) => c.note_positions(bs),
        }
    }
}

impl From<ComponentClass> for Component {
    fn from(c: ComponentClass) -> Self {
        Self::Class(c)
    }
}

impl From<ComponentSequence> for Component {
    fn from(c: ComponentSequence) -> Self {
        Self::Sequence(c)
    }
}

/// Applies the given const visitor functor.
pub(crate) fn walk_component<V: ConstComponentVisitor>(
    v: &mut V,
    c: &Component,
) -> Result<(), V::Error> {
    match c {
        Component::Alternation(c) => walk_component_alternation(v, c),
        Component::Class(c) => walk_component_class(v, c),
        Component::Sequence(c) => walk_component_sequence(v, c),
    }
}
".

(** src/parser/control_verbs.rs, without its tests *)
Definition control_verbs_rs : string := "use nom::{
    bytes::complete::{is_not, tag},
    character::complete::char,
    sequence::delimited,
    IResult,
};

use crate::parser::ParseMode;
use crate::util::compile_error::{CompileError, ErrorKind};

/// Parses a control verb occurring at the beginning of a pattern.
pub(crate) fn read_control_verbs<'a>(
    input: &'a str,
    start: usize,
    mode: &mut ParseMode,
) -> Result<&'a str, CompileError> {
    match control_verb(input) {
        Ok((input, verb)) => {
            match verb {
                ""UCP"" => {
                    mode.ucp = true;
                }
                ""UTF8"" | ""UTF"" => {
                    mode.utf8 = true;
                }
                ""NO_AUTO_POSSESS"" | ""NO_START_OPT"" | ""UTF16"" | ""UTF32"" | ""CR"" | ""LF"" | ""CRLF""
                | ""ANYCRLF"" | ""ANY"" | ""BSR_ANYCRLF"" | ""BSR_UNICODE"" => {
                    return Err(CompileError::new(
                        ErrorKind::LocatedParse,
                        format!(""Unsupported control verb {} at index {}"", verb, start + 2),
                    ));
                }
                verb => {
                    if verb.starts_with(""LIMIT_MATCH="") || verb.starts_with(""LIMIT_RECURSION="") {
                        return Err(CompileError::new(
                            ErrorKind::LocatedParse,
                            format!(""Unsupported control verb {} at index {}"", verb, start + 2),
                        ));
                    }
                    return Err(CompileError::new(
                        ErrorKind::LocatedParse,
                        format!(""Unknown control verb {} at index {}"", verb, start + 2),
                    ));
                }
            }
            Ok(input)
        }
        Err(_) => Ok(input),
    }
}

fn control_verb(input: &str) -> IResult<&str, &str> {
    delimited(tag(""(*""), is_not("")""), char(')'))(input)
}

".

(** src/parser.rs, without its tests *)
Definition parser_rs : string := "mod ascii_component_class;
mod build_state;
mod component;
mod component_alternation;
mod component_class;
mod component_sequence;
mod const_component_visitor;
mod control_verbs;
#[cfg(test)]
mod dump;
mod parser_util;
mod position;
mod position_info;
mod prefilter;
mod shortcut_literal;

pub(crate) use build_state::make_glushkov_build_state;
pub(crate) use component::Component;
pub(crate) use parser_util::ParseMode;
pub(crate) use position::{PosFlags, Position};
pub(crate) use position_info::PositionInfo;
pub(crate) use prefilter::prefilter_tree;
pub(crate) use shortcut_literal::shortcut_literal;

pub(in crate::parser) use build_state::GlushkovBuildState;
pub(in crate::parser) use component::walk_component;
pub(in crate::parser) use component_alternation::ComponentAlternation;
pub(in crate::parser) use component_class::{get_literal_component_class, ComponentClass};
pub(in crate::parser) use component_sequence::ComponentSequence;
pub(in crate::parser) use const_component_visitor::ConstComponentVisitor;

use crate::parser::control_verbs::read_control_verbs;
use crate::util::compile_error::{CompileError, ErrorKind};
use nom::{bytes::complete::take, character::complete::char, IResult};
use std::mem;

/// Structure representing current state as we're parsing (current sequence,
/// current options). Stored in the 'sequences' vector.
struct ExprState {
    seq: ComponentSequence, // Current sequence
    offset: usize,          // Offset seq was entered, for error reporting
    mode: ParseMode,        // Current mode flags
}

impl ExprState {
    fn new(seq: ComponentSequence, offset: usize, mode: ParseMode) -> Self {
        Self { seq, offset, mode }
    }
}

/// Adds a literal to the current sequence.
fn add_literal(
    current_seq: &mut ComponentSequence,
    c: char,
    mode: ParseMode,
) -> Result<(), CompileError> {
    let cc = get_literal_component_class(c, mode.caseless)?;
    current_seq.add_component(cc.into());
    Ok(())
}

struct Context<'p> {
    ptr: &'p str,
    p: &'p str,
    mode: ParseMode,

    /// Stack of sequences and flags used to store state when we enter
    /// sub-sequences.
    sequences: Vec<ExprState>,

    /// Index of the next capturing group.
    ///
    /// Note that zero is reserved for the root sequence.
    group_index: u32,

    /// Current sequence being appended to.
    current_seq: ComponentSequence,
}

impl<'p> Context<'p> {
    fn new(ptr: &'p str, p: &'p str, mode: ParseMode) -> Self {
        let mut current_seq = ComponentSequence::default();
        current_seq.capture_index = Some(0);

        Self {
            ptr,
            p,
            mode,
            sequences: Vec::new(),
            group_index: 1,
            current_seq,
        }
    }

    fn push_sequence(&mut self, ts: &'p str) {
        let mut seq = ComponentSequence::default();
        seq.capture_index = Some(self.group_index);
        self.group_index += 1;
        mem::swap(&mut self.current_seq, &mut seq);
        self.sequences
            .push(ExprState::new(seq, ts.len() - self.ptr.len(), self.mode));
    }

    fn pop_sequence(&mut self) -> Result<(), CompileError> {
        let (mut seq, mode) = if let Some(v) = self.sequences.pop() {
            (v.seq, v.mode)
        } else {
            return Err(CompileError::new(
                ErrorKind::LocatedParse,
                ""Unmatched parentheses"",
            ));
        };
        mem::swap(&mut self.current_seq, &mut seq);
        seq.finalize();
        self.current_seq.add_component(seq.into());
        self.mode = mode;
        Ok(())
    }

    fn enter_capturing_group(&mut self, ts: &'p str) {
        self.push_sequence(ts);
    }

    fn exit_group(&mut self) -> Result<(), CompileError> {
        self.pop_sequence()?;
        Ok(())
    }

    fn main(&mut self, ts: &'p str) -> Result<(), CompileError> {
        if let Ok((p, _)) = char::<&str, ()>('(')(ts) {
            self.enter_capturing_group(ts);
            self.p = p;
        } else if let Ok((p, _)) = char::<&str, ()>(')')(ts) {
            self.exit_group()?;
            self.p = p;
        } else if let Ok((p, _)) = char::<&str, ()>('|')(ts) {
            self.current_seq.add_alternation();
            self.p = p;
        } else if let Ok((p, c)) = take_any(ts) {
            // TODO: Support UTF-8 literals
            assert!(c.is_ascii());
            if let Err(mut e) = add_literal(&mut self.current_seq, c, self.mode) {
                e.reason
                    .push_str(&format!("" at index {}"", self.ptr.len() - self.p.len()));
                return Err(e);
            }
            self.p = p
        }
        Ok(())
    }

    fn parse(mut self) -> Result<ComponentSequence, CompileError> {
        while !self.p.is_empty() {
            self.main(self.p)?;
        }

        if let Some(seq) = self.sequences.last() {
            return Err(CompileError::new(
                ErrorKind::Parse,
                format!(
                    ""Missing close parenthesis for group started at index {}."",
                    seq.offset
                ),
            ));
        }

        // Finalize the top-level sequence, which will take care of any
        // top-level alternation.
        self.current_seq.finalize();
        Ok(self.current_seq)
    }
}

pub(crate) fn parse(ptr: &str, global_mode: &mut ParseMode) -> Result<Component, CompileError> {
    let p = read_control_verbs(ptr, 0, global_mode)?;

    let root_seq = Context::new(ptr, p, *global_mode).parse()?;

    Ok(Component::Sequence(root_seq))
}

fn take_any(input: &str) -> IResult<&str, char> {
    take(1_usize)(input).map(|(input, c)| {
        let c = c
            .chars()
            .next()
            .expect(""take(1usize) in take_any should return a non-empty string."");
        (input, c)
    })
}

".

(** src/grey.rs *)
Definition grey_rs : string := "#[allow(clippy::struct_excessive_bools)]
#[derive(Clone)]
pub(crate) struct Grey {
    pub(crate) allow_literal: bool,

    pub(crate) flood_as_puffette: bool,

    pub(crate) shortcut_literals: bool,

    // SmallWrite engine
    pub(crate) allow_small_write: bool,
    pub(crate) small_write_largest_buffer: usize,
    pub(crate) small_write_max_patterns: usize,
    pub(crate) small_write_max_literals: usize,

    pub(crate) limit_pattern_count: usize,
    pub(crate) limit_pattern_length: usize,
    pub(crate) limit_report_count: usize,
}

impl Default for Grey {
    fn default() -> Self {
        Self {
            allow_literal: true,
            flood_as_puffette: false,
            shortcut_literals: true,
            allow_small_write: true, // McClellan dfas for small patterns
            small_write_largest_buffer: 70,
            small_write_max_patterns: 10_000,
            small_write_max_literals: 10_000,
            limit_pattern_count: 8_000_000,
            limit_pattern_length: 16_000,
            limit_report_count: 4 * 8_000_000,
        }
    }
}
".

(** src/util/depth.rs *)
Definition depth_rs : string := "use std::cmp::Ordering;
use std::convert::TryFrom;

const INFINITY: u32 = (1 << 31) - 1;
#[allow(dead_code)]
const UNREACHABLE: u32 = 1 << 31;
const MAX_VALUE: u32 = INFINITY - 1;

pub(crate) struct DepthOverflowError {}

/// Type used to represent depth information; value is either a count, or the
/// special values ""infinity"" and ""unreachable"".
#[derive(Clone, Copy, Debug, Eq)]
pub(crate) struct Depth {
    val: u32,
}

impl Depth {
    pub(crate) fn infinity() -> Self {
        Self { val: INFINITY }
    }
}

impl TryFrom<u32> for Depth {
    type Error = DepthOverflowError;

    fn try_from(val: u32) -> Result<Self, Self::Error> {
        if val <= MAX_VALUE {
            Ok(Self { val })
        } else {
            Err(DepthOverflowError {})
        }
    }
}

impl TryFrom<usize> for Depth {
    type Error = DepthOverflowError;

    fn try_from(val: usize) -> Result<Self, Self::Error> {
        if val <= MAX_VALUE as usize {
            #[allow(clippy::cast_possible_truncation)]
            Ok(Self { val: val as u32 })
        } else {
            Err(DepthOverflowError {})
        }
    }
}

impl PartialEq for Depth {
    fn eq(&self, other: &Self) -> bool {
        self.val.eq(&other.val)
    }
}

impl Ord for Depth {
    fn cmp(&self, other: &Self) -> Ordering {
        self.val.cmp(&other.val)
    }
}

impl PartialOrd for Depth {
    fn partial_cmp(&self, other: &Self) -> Option<Ordering> {
        Some(self.cmp(other))
    }
}
".

(** src/util/report.rs *)
Definition report_rs : string := "#[derive(Clone, Hash, PartialEq, Eq)]
pub(crate) struct Report {
    /// Minimum match length (start of match to current offset).
    pub(crate) min_length: u64,
}

pub(crate) fn make_e_callback(
    _report: u32,
    _offset_adjust: i32,
    _ekey: Option<u32>,
    _quiet: bool,
) -> Report {
    Report { min_length: 0 }
}

pub(crate) fn make_som_relative_callback(
    _report: u32,
    _offset_adjust: i32,
    _distance: u64,
) -> Report {
    Report { min_length: 0 }
}
".

(** src/util/report_manager.rs *)
Definition report_manager_rs : string := "use crate::util::{Report, ReportId, S64a};
use crate::{CompileError, ErrorKind, Grey};
use std::collections::{hash_map::Entry, BTreeMap, HashMap};
use std::convert::TryInto;

#[derive(Clone, Copy)]
pub(crate) struct ExternalReportInfo {
    pub(crate) highlander: bool,
    pub(crate) first_pattern_index: u32,
}

impl ExternalReportInfo {
    pub(crate) fn new(h: bool, fpi: u32) -> Self {
        Self {
            highlander: h,
            first_pattern_index: fpi,
        }
    }
}

/// Tracks Report structures, exhaustion and dedupe keys.
pub(crate) struct ReportManager<'a> {
    /// Grey box ref, for checking resource limits.
    grey: &'a Grey,

    /// Report structures, indexed by ID.
    report_ids: Vec<Report>,

    /// Mapping from Report to ID (inverse of `report_ids` vector).
    report_id_to_internal_map: HashMap<Report, u32>,

    /// Mapping from external match ids to information about that id.
    external_id_map: HashMap<ReportId, ExternalReportInfo>,

    /// Mapping from expression index to exhaustion key.
    to_exhaustible_key_map: BTreeMap<S64a, u32>,

    /// Whether database is globally exhaustible (all patterns must b highlander
    /// for this to be `true`).
    global_exhaust: bool,
}

impl<'a> ReportManager<'a> {
    pub(crate) fn new(g: &'a Grey) -> Self {
        Self {
            grey: g,
            report_ids: Vec::default(),
            report_id_to_internal_map: HashMap::default(),
            external_id_map: HashMap::default(),
            to_exhaustible_key_map: BTreeMap::default(),
            global_exhaust: true,
        }
    }

    /// Fetches the ID associated with the given Report.
    pub(crate) fn get_internal_id(&mut self, ir: &Report) -> Result<u32, CompileError> {
        if let Some(id) = self.report_id_to_internal_map.get(ir) {
            return Ok(*id);
        }

        // Construct a new internal report and assign it a ReportID.

        if self.num_reports() >= self.grey.limit_report_count {
            return Err(CompileError::new(
                ErrorKind::ResourceLimit,
                ""Resource limit exceeded."",
            ));
        }

        let size = self.report_ids.len().try_into().expect(""too many reports"");
        self.report_ids.push(ir.clone());
        self.report_id_to_internal_map.insert(ir.clone(), size);
        Ok(size)
    }

    /// Fetches the Report associated with `id`.
    ///
    /// # Panics
    ///
    /// Panics if `id` is out of bound.
    pub(crate) fn get_report(&self, id: u32) -> &Report {
        &self.report_ids[id as usize]
    }

    /// Total number of reports.
    fn num_reports(&self) -> usize {
        self.report_ids.len()
    }

    /// Registers an external report and validate that we are not violating
    /// highlander constraints (which will cause an exception to be thrown).
    pub(crate) fn register_ext_report(
        &mut self,
        id: ReportId,
        ext: ExternalReportInfo,
    ) -> Result<(), CompileError> {
        match self.external_id_map.entry(id) {
            Entry::Occupied(e) => {
                let eri = e.get();
                if eri.highlander != ext.highlander {
                    // We have a problem.
                    let out = format!(
                    ""Expression (index {}) with match ID {} {} SINGLEMATCH whereas previous expression (index {}) with the same match ID did{}"",
                    ext.first_pattern_index,
                    id,
                    if ext.highlander {
                        ""specified ""
                    } else {
                        ""did not sepcify ""
                    },
                    eri.first_pattern_index,
                    if eri.highlander {
                        "" not.""
                    } else {
                        "".""
                    },
                );
                    return Err(CompileError::with_index(ext.first_pattern_index, out));
                }
            }
            Entry::Vacant(e) => {
                e.insert(ext);
            }
        }

        // Any non-highlander pattern will render us not globally exhaustible.
        if !ext.highlander {
            self.global_exhaust = false;
        }
        Ok(())
    }

    /// Fetch the ekey associated with the given expression index, assigning one
    /// if necessary.
    ///
    /// # Panics
    ///
    /// Panics if the expression index is larger than `u32::max_value()`.
    pub(crate) fn get_exhaustible_key(&mut self, a: u32) -> u32 {
        let size: u32 = self
            .to_exhaustible_key_map
            .len()
            .try_into()
            .expect(""too many expressions"");
        *self.to_exhaustible_key_map.entry(a.into()).or_insert(size)
    }
}
".

(** src/util/boundary_reports.rs *)
Definition boundary_reports_rs : string := "use crate::util::ReportId;
use std::collections::HashSet;

#[derive(Default)]
pub(crate) struct BoundaryReports {
    /// Set of internal reports to fire unconditionally at offset 0.
    #[allow(dead_code)]
    report_at_0: HashSet<ReportId>,
    /// Set of internal reports to fire unconditionally at offset 0 if it is eod.
    #[allow(dead_code)]
    report_at_0_eod: HashSet<ReportId>,
    /// Set of internal reports to fire unconditionally at eod.
    #[allow(dead_code)]
    report_at_eod: HashSet<ReportId>,
}
".

(** src/util/compile_context.rs *)
Definition compile_context_rs : string := "use crate::Grey;

/// Structure for describing the compile environment: grey box settings, target
/// arch, mode flags, etc.
#[derive(Clone)]
pub(crate) struct CompileContext {
    pub(crate) streaming: bool,
    pub(crate) vectored: bool,

    pub(crate) grey: Grey,
}

impl CompileContext {
    pub(crate) fn new(streaming: bool, vectored: bool, grey: &Grey) -> Self {
        Self {
            streaming,
            vectored,
            grey: grey.clone(),
        }
    }
}
".

(** src/util/ue2string.rs *)
Definition ue2string_rs : string := "use super::compare::{mytoupper, ourisalpha};
use bit_vec::BitVec;
use std::cmp::Ordering;

#[derive(Default, Eq)]
pub struct Ue2Literal {
    s: Vec<u8>,
    nocase: BitVec,
}

pub struct Ue2LiteralElem {
    pub c: u8,
    nocase: bool,
}

pub struct Ue2LiteralIter<'a> {
    lit: &'a Ue2Literal,
    idx: usize,
}

impl Ue2Literal {
    #[must_use]
    pub fn len(&self) -> usize {
        self.s.len()
    }

    #[must_use]
    pub fn is_empty(&self) -> bool {
        self.s.is_empty()
    }

    #[must_use]
    pub fn any_nocase(&self) -> bool {
        self.nocase.any()
    }

    #[must_use]
    pub fn iter(&self) -> Ue2LiteralIter {
        Ue2LiteralIter { lit: self, idx: 0 }
    }

    pub fn push(&mut self, mut c: u8, nc: bool) {
        if nc {
            c = mytoupper(c);
        }
        self.nocase.push(nc);
        self.s.push(c);
    }
}

impl<'a> Iterator for Ue2LiteralIter<'a> {
    type Item = Ue2LiteralElem;

    fn next(&mut self) -> Option<Self::Item> {
        let c = *self.lit.s.get(self.idx)?;
        let nocase = self.lit.nocase.get(self.idx)?;
        self.idx += 1;
        Some(Ue2LiteralElem { c, nocase })
    }
}

impl<'a> IntoIterator for &'a Ue2Literal {
    type Item = Ue2LiteralElem;
    type IntoIter = Ue2LiteralIter<'a>;

    #[must_use]
    fn into_iter(self) -> Self::IntoIter {
        self.iter()
    }
}

impl PartialEq for Ue2Literal {
    #[must_use]
    fn eq(&self, other: &Self) -> bool {
        self.s == other.s
    }
}

impl Ord for Ue2Literal {
    #[must_use]
    fn cmp(&self, other: &Self) -> Ordering {
        let ordering = self.s.cmp(&other.s);
        if ordering == Ordering::Equal {
            self.nocase.cmp(&other.nocase)
        } else {
            ordering
        }
    }
}

impl PartialOrd for Ue2Literal {
    #[must_use]
    fn partial_cmp(&self, other: &Self) -> Option<Ordering> {
        Some(self.cmp(other))
    }
}

/// Returns `true` iff the range of a literal given cannot be considered
/// entirely case-sensitive nor entirely case-insensitive.
pub fn mixed_sensitivity<T>(it: T) -> bool
where
    T: IntoIterator<Item = Ue2LiteralElem>,
{
    let mut cs = false;
    let mut nc = false;
    for e in it {
        if !ourisalpha(e.c) {
            continue;
        }
        if e.nocase {
            nc = true;
        } else {
            cs = true;
        }
    }

    cs && nc
}

#[cfg(test)]
mod test {
    use super::*;

    #[test]
    fn string_eq() {
        let empty1 = Ue2Literal::default();
        let empty2 = Ue2Literal::default();

        assert!(empty1 == empty2);
        assert!(!(empty1 != empty2));
    }
}
".

(** src/som.rs *)
Definition som_rs : string := "//! Common SOM definitions.

/// A start of match behavior.
#[derive(Clone, Copy, PartialEq)]
pub(crate) enum SomType {
    /// No SOM required
    None,

    /// Exact leftmost SOM
    #[allow(dead_code)]
    Left,
}
".

(** src/rose/rose_build_resources.rs *)
Definition rose_build_resources_rs : string := "/// Structure tracking which resources are used by this Rose instance at
/// runtime.
///
/// We use this to control how much initialisation we need to do at the
/// beginning of a stream/block at runtime.
#[allow(clippy::struct_excessive_bools)]
#[derive(Default)]
pub(super) struct RoseResources {
    pub(super) has_outfixes: bool,
    pub(super) has_suffixes: bool,
    pub(super) has_leftfixes: bool,
    #[allow(dead_code)]
    pub(super) has_literals: bool,
    pub(super) has_states: bool,
    pub(super) checks_groups: bool,
    pub(super) has_lit_delay: bool,
    pub(super) has_lit_check: bool, // long literal support
    pub(super) has_anchored: bool,
    #[allow(dead_code)]
    pub(super) has_anchored_multiple: bool, // multiple anchored dfas
    #[allow(dead_code)]
    pub(super) has_anchored_large: bool, // mcclellan 16 anchored dfa
    pub(super) has_floating: bool,
    pub(super) has_eod: bool,
}
".

(** src/rose/rose_build_bytecode.rs *)
Definition rose_build_bytecode_rs : string := "use super::{RoseBuild, RoseResources, RoseRuntimeImpl};
use crate::util::CompileContext;

#[derive(Default)]
pub(super) struct BuildContext {
    /// Resources in use (tracked as programs are added).
    pub(super) resources: RoseResources,
}

fn is_pure_floating(resources: &RoseResources, cc: &CompileContext) -> bool {
    if !resources.has_floating {
        return false;
    }

    if resources.has_outfixes || resources.has_suffixes || resources.has_leftfixes {
        return false;
    }

    if resources.has_anchored {
        return false;
    }

    if resources.has_eod {
        return false;
    }

    if resources.has_states {
        return false;
    }

    if resources.has_lit_delay {
        return false;
    }

    if cc.streaming && resources.has_lit_check {
        return false;
    }

    if resources.checks_groups {
        return false;
    }

    true
}

fn is_single_outfix(_tbi: &RoseBuild) -> bool {
    false
}

pub(super) fn pick_runtime_impl(build: &RoseBuild, resources: &RoseResources) -> RoseRuntimeImpl {
    if is_pure_floating(resources, build.cc) {
        return RoseRuntimeImpl::PureLiteral;
    }

    if is_single_outfix(build) {
        return RoseRuntimeImpl::SingleOutfix;
    }

    RoseRuntimeImpl::FullRose
}

pub(super) struct DerivedBoundaryReports {}
".

(** src/rose/rose_internal.rs *)
Definition rose_internal_rs : string := "use crate::Mode;

pub(crate) enum RoseRuntimeImpl {
    FullRose,
    PureLiteral,
    SingleOutfix,
}

pub(crate) struct RoseEngine {
    /// Can we just run the floating table or a single outfix or do we need a
    /// full rose?
    pub(crate) runtime_impl: RoseRuntimeImpl,
    /// Scanning mode.
    #[allow(dead_code)]
    pub(super) mode: Mode,
}
".

(** src/rose/rose_build.rs *)
Definition rose_build_rs : string := "use super::rose_build_bytecode::{pick_runtime_impl, BuildContext};
use crate::rose::RoseEngine;
use crate::util::{CompileContext, ReportId, Ue2Literal};
use crate::Mode;
use std::collections::HashSet;

pub(crate) struct RoseBuild<'a> {
    pub(crate) cc: &'a CompileContext,
    pub(crate) has_som: bool,
}

impl<'a> RoseBuild<'a> {
    #[allow(clippy::needless_return)]
    pub(crate) fn add(
        &mut self,
        _anchored: bool,
        _eod: bool,
        _lit: &Ue2Literal,
        _reports: &HashSet<ReportId>,
    ) {
        if self.cc.grey.flood_as_puffette {
            return;
        }
    }

    pub(crate) fn build_rose(&self) -> RoseEngine {
        self.build_final_engine()
    }

    fn build_final_engine(&self) -> RoseEngine {
        // Set scanning mode.
        let mode = if self.cc.streaming {
            if self.cc.vectored {
                Mode::Vectored
            } else {
                Mode::Stream(None)
            }
        } else {
            Mode::Block
        };

        let _dboundary = super::DerivedBoundaryReports {};

        let bc = BuildContext::default();

        RoseEngine {
            runtime_impl: pick_runtime_impl(self, &bc.resources),
            mode,
        }
    }
}
".

(** src/rose/block.rs *)
Definition block_rs : string := "use crate::rose::RoseEngine;

pub(crate) fn rose_block_exec(_rose: &RoseEngine) {}
".

(** src/database.rs *)
Definition database_rs : string := "use crate::rose::RoseEngine;

pub struct Database {
    rose: RoseEngine,
}

impl Database {
    pub(crate) fn new(rose: RoseEngine) -> Self {
        Self { rose }
    }
}

pub(crate) fn get_bytecode(db: &Database) -> &RoseEngine {
    &db.rose
}
".

(** src/scratch.rs *)
Definition scratch_rs : string := "pub(crate) struct CoreInfo {
    pub(crate) state: *mut u8,
}

pub struct Scratch {
    pub(crate) core_info: CoreInfo,
}
".

(** src/runtime.rs *)
Definition runtime_rs : string := "use crate::database::{get_bytecode, Database};
use crate::rose::{rose_block_exec, RoseEngine, RoseRuntimeImpl};
use crate::scratch::Scratch;

pub enum Error {
    /// A parameter passed to this function was invalid.
    Invalid,
    /// The engine was terminated by callback.
    ScanTerminated,
    /// Unexpected internal error.
    Unknown,
}

/// Initializes SOM state. Used in both block and streaming mode.
fn init_som_state(_rose: &RoseEngine, _state: *mut u8) {}

fn raw_block_exec(rose: &RoseEngine, scratch: &mut Scratch) {
    init_som_state(rose, scratch.core_info.state);

    rose_block_exec(rose);
}

fn pure_literal_block_exec(_rose: &RoseEngine, _scratch: &mut Scratch) {}

fn single_outfix_block_exec(_rose: &RoseEngine, _scratch: &mut Scratch) {}

/// Performs pattern matching against the pattern database.
///
/// # Errors
///
/// Currently this function never returns an error.
pub fn scan(db: &Database, _data: &[u8], scratch: &mut Scratch) -> Result<(), Error> {
    let rose = get_bytecode(db);

    match rose.runtime_impl {
        RoseRuntimeImpl::FullRose => raw_block_exec(rose, scratch),
        RoseRuntimeImpl::PureLiteral => pure_literal_block_exec(rose, scratch),
        RoseRuntimeImpl::SingleOutfix => single_outfix_block_exec(rose, scratch),
    }

    Ok(())
}
".

(** src/parser/const_component_visitor.rs *)
Definition const_component_visitor_rs : string := "use super::ascii_component_class::AsciiComponentClass;
use super::{ComponentAlternation, ComponentSequence};

pub(crate) trait ConstComponentVisitor {
    type Error;

    fn pre_ascii_component_class(&mut self, c: &AsciiComponentClass) -> Result<(), Self::Error>;
    fn pre_component_alternation(&mut self, c: &ComponentAlternation) -> Result<(), Self::Error>;
    fn pre_component_sequence(&mut self, c: &ComponentSequence) -> Result<(), Self::Error>;

    fn during_ascii_component_class(&self, c: &AsciiComponentClass);
    fn during_component_alternation(&self, c: &ComponentAlternation);
    fn during_component_sequence(&self, c: &ComponentSequence);

    fn post_ascii_component_class(&mut self, c: &AsciiComponentClass);
    fn post_component_alternation(&mut self, c: &ComponentAlternation);
    fn post_component_sequence(&mut self, c: &ComponentSequence);
}
".

(** src/parser/dump.rs *)
Definition dump_rs : string := "use super::ascii_component_class::AsciiComponentClass;
use crate::parser::*;
use crate::util::{describe_class, CcOutput};
use std::fmt;
use std::fmt::Write;

struct DumpVisitor<'w, W: Write> {
    out: &'w mut W,
    level: usize,
}

impl<'w, W: Write> DumpVisitor<'w, W> {
    fn new(out: &'w mut W) -> Self {
        DumpVisitor { out, level: 0 }
    }

    fn indent(&mut self) {
        self.level += 1;
    }

    fn outdent(&mut self) {
        debug_assert!(self.level > 0);
        self.level -= 1;
    }

    fn filler(&self) -> String {
        "" "".repeat(self.level * 2)
    }
}

impl<'w, W: Write> ConstComponentVisitor for DumpVisitor<'w, W> {
    type Error = fmt::Error;

    fn pre_ascii_component_class(&mut self, c: &AsciiComponentClass) -> Result<(), Self::Error> {
        self.out
            .write_str(&(self.filler() + ""ASCII CLASS\n"" + &self.filler() + ""  ""))?;
        describe_class(self.out, &c.cr, 256, CcOutput::Text)?;
        self.out.write_char('\n')?;
        self.indent();
        Ok(())
    }

    fn post_ascii_component_class(&mut self, _c: &AsciiComponentClass) {
        self.outdent();
    }

    fn pre_component_alternation(&mut self, _c: &ComponentAlternation) -> Result<(), Self::Error> {
        self.out.write_str(&(self.filler() + ""ALTERNATION\n""))?;
        self.indent();
        Ok(())
    }

    fn post_component_alternation(&mut self, _c: &ComponentAlternation) {
        self.outdent();
    }

    fn pre_component_sequence(&mut self, c: &ComponentSequence) -> Result<(), Self::Error> {
        self.out
            .write_str(&format!(""{}{}"", self.filler(), ""SEQUENCE""))?;
        if let Some(index) = c.capture_index {
            self.out.write_str(&format!("" (capture index {})"", index))?;
        } else {
            self.out.write_str("" (not captured)"")?;
        }
        if let Some(name) = &c.capture_name {
            self.out
                .write_str(&format!("" (capture name '{}')\n"", name))?;
        } else {
            self.out.write_char('\n')?;
        }
        self.indent();
        if c.children().is_empty() {
            self.out
                .write_str(&format!(""{} <empty>\n"", self.filler()))?;
        }
        Ok(())
    }

    fn post_component_sequence(&mut self, _c: &ComponentSequence) {
        self.outdent();
    }

    // not used
    fn during_ascii_component_class(&self, _c: &AsciiComponentClass) {}
    fn during_component_alternation(&self, _c: &ComponentAlternation) {}
    fn during_component_sequence(&self, _c: &ComponentSequence) {}
}

pub(crate) fn dump_tree<W: Write>(out: &mut W, root: &Component) -> Result<(), fmt::Error> {
    let mut vis = DumpVisitor::new(out);
    walk_component(&mut vis, root)
}
".

(** src/parser/position.rs *)
Definition position_rs : string := "use bitflags::bitflags;

use crate::nfagraph::NfaVertex;

bitflags! {
    #[derive(Default)]
    pub(crate) struct PosFlags: u32 {
        const NOFLOAT = 0x0000_0001; // don't wire to start-dotstar
        const MUST_FLOAT = 0x0000_0010; // don't wire solely to start
        const MULTILINE_START = 0x0000_0100;
    }
}

pub(crate) type Position = NfaVertex;
".

(** src/parser/position_info.rs *)
Definition position_info_rs : string := "use crate::parser::{PosFlags, Position};

#[derive(Clone, Copy, Eq, Hash, PartialEq)]
pub(crate) struct PositionInfo {
    pub(in crate::parser) pos: Position,
    pub(in crate::parser) flags: PosFlags,
}

impl From<Position> for PositionInfo {
    fn from(pos: Position) -> Self {
        Self {
            pos,
            flags: PosFlags::default(),
        }
    }
}
".

(** src/parser/prefilter.rs *)
Definition prefilter_rs : string := "use crate::parser::Component;

pub(crate) fn prefilter_tree(_root: &Component) {}
".

(** src/nfagraph/ng_holder.rs *)
Definition ng_holder_rs : string := "use crate::parser::PosFlags;
use crate::util::{CharReach, ReportId};
use petgraph::graph::{DefaultIx, NodeIndex};
use petgraph::{Direction, Graph};
use std::collections::HashSet;
use std::ops::{Index, IndexMut};

#[derive(Default)]
pub(crate) struct NfaGraphVertexProps {
    /// Set of characters on which this vertex is reachable.
    pub(in crate::nfagraph) char_reach: CharReach,

    /// Set of reports raised by this vertex.
    pub(super) reports: HashSet<ReportId>,

    /// Flags associated with assertions.
    pub(in crate::nfagraph) assert_flags: PosFlags,
}

#[derive(Default)]
struct NfaGraphEdgeProps {}

pub(crate) struct NgHolder {
    inner: Graph<NfaGraphVertexProps, NfaGraphEdgeProps>,

    pub(in crate::nfagraph) start: NfaVertex,
    pub(in crate::nfagraph) start_ds: NfaVertex,
    pub(in crate::nfagraph) accept: NfaVertex,
    pub(in crate::nfagraph) accept_eod: NfaVertex,
}

impl NgHolder {
    pub(crate) fn new() -> Self {
        let mut inner = Graph::<NfaGraphVertexProps, NfaGraphEdgeProps>::new();

        // Add initial special nodes.
        let start = add_special_vertex(&mut inner);
        let start_ds = add_special_vertex(&mut inner);
        let accept = add_special_vertex(&mut inner);
        let accept_eod = add_special_vertex(&mut inner);

        // Wire up some fake edges for the stylized bits of the NFA.
        inner.add_edge(start, start_ds, NfaGraphEdgeProps::default());
        inner.add_edge(start_ds, start_ds, NfaGraphEdgeProps::default());
        inner.add_edge(accept, accept_eod, NfaGraphEdgeProps::default());

        inner[start].char_reach.set_all();
        inner[start_ds].char_reach.set_all();

        Self {
            inner,
            start,
            start_ds,
            accept,
            accept_eod,
        }
    }

    pub(in crate::nfagraph) fn add_vertex(&mut self) -> NfaVertex {
        let v = NfaGraphVertexProps::default();
        self.inner.add_node(v)
    }

    pub(in crate::nfagraph) fn num_vertices(&self) -> usize {
        self.inner.node_count()
    }

    /// Returns the set of all reports in the graph.
    pub(crate) fn all_reports(&self) -> HashSet<ReportId> {
        let reports = self
            .inner
            .neighbors_directed(self.accept, Direction::Incoming)
            .fold(HashSet::new(), |mut union, v| {
                union.extend(&self.inner[v].reports);
                union
            });
        self.inner
            .neighbors_directed(self.accept_eod, Direction::Incoming)
            .fold(reports, |mut union, v| {
                union.extend(&self.inner[v].reports);
                union
            })
    }

    // Miscellaneous NFA graph utilities.

    /// Returns `true` if the graph contains an edge from one of {`start`,
    /// `start_ds`} to one of {`accept`, `accept_eod`}.
    pub(crate) fn is_vacuous(&self) -> bool {
        self.inner.find_edge(self.start, self.accept).is_some()
            || self.inner.find_edge(self.start, self.accept_eod).is_some()
            || self.inner.find_edge(self.start_ds, self.accept).is_some()
            || self
                .inner
                .find_edge(self.start_ds, self.accept_eod)
                .is_some()
    }
}

pub(crate) type NfaVertex = NodeIndex<DefaultIx>;

impl Index<NfaVertex> for NgHolder {
    type Output = NfaGraphVertexProps;

    fn index(&self, index: NfaVertex) -> &NfaGraphVertexProps {
        self.inner.node_weight(index).expect(""invalid index"")
    }
}

impl IndexMut<NfaVertex> for NgHolder {
    fn index_mut(&mut self, index: NfaVertex) -> &mut NfaGraphVertexProps {
        self.inner.node_weight_mut(index).expect(""invalid index"")
    }
}

fn add_special_vertex(g: &mut Graph<NfaGraphVertexProps, NfaGraphEdgeProps>) -> NfaVertex {
    let v = NfaGraphVertexProps::default();
    g.add_node(v)
}
".

(** src/nfagraph/ng_builder.rs *)
Definition ng_builder_rs : string := "use crate::compiler::{BuiltExpression, ExpressionInfo, ParsedExpression};
use crate::nfagraph::{NfaVertex, NgHolder};
use crate::parser::{PosFlags, Position};
use crate::util::CharReach;

pub(crate) struct NfaBuilder {
    graph: NgHolder,
    expr: ExpressionInfo,
}

impl NfaBuilder {
    fn new(parsed: &ParsedExpression) -> Self {
        let graph = NgHolder::new();
        Self {
            graph,
            expr: parsed.expr.clone(),
        }
    }

    pub(crate) fn make_position(&mut self) -> Position {
        self.add_vertex()
    }

    pub(crate) fn get_start(&self) -> Position {
        self.graph.start
    }

    pub(crate) fn get_start_dot_star(&self) -> Position {
        self.graph.start_ds
    }

    pub(crate) fn get_accept(&self) -> Position {
        self.graph.accept
    }

    pub(crate) fn get_accept_eod(&self) -> Position {
        self.graph.accept_eod
    }

    pub(crate) fn add_char_reach(&mut self, pos: NfaVertex, cr: CharReach) {
        self.graph[pos].char_reach |= cr;
    }

    pub(crate) fn get_assert_flag(&self, pos: NfaVertex) -> PosFlags {
        self.graph[pos].assert_flags
    }

    fn add_vertex(&mut self) -> NfaVertex {
        self.graph.add_vertex()
    }

    #[allow(dead_code)]
    pub(crate) fn num_vertices(&self) -> usize {
        self.graph.num_vertices()
    }

    pub(crate) fn get_graph(self) -> BuiltExpression {
        BuiltExpression {
            expr: self.expr,
            g: self.graph,
        }
    }
}

pub(crate) fn make_nfa_builder(expr: &ParsedExpression) -> NfaBuilder {
    NfaBuilder::new(expr)
}
".

(** src/parser/build_state.rs *)
Definition build_state_rs : string := "use std::collections::{HashMap, HashSet};

use crate::nfagraph::{NfaBuilder, NfaVertex};
use crate::parser::{PosFlags, Position, PositionInfo};

pub(crate) struct GlushkovBuildState<'a> {
    start_state: Position,
    start_dot_star_state: Position,
    accept_state: Position,
    accept_eod_state: Position,

    builder: &'a mut NfaBuilder,

    /// Map storing successors for each position.
    successors: HashMap<Position, HashSet<PositionInfo>>,
}

impl<'a> GlushkovBuildState<'a> {
    fn new(b: &'a mut NfaBuilder) -> Self {
        let start_state = b.get_start();
        let start_dot_star_state = b.get_start_dot_star();
        let accept_state = b.get_accept();
        let accept_eod_state = b.get_accept_eod();

        let mut bs = GlushkovBuildState {
            start_state,
            start_dot_star_state,
            accept_state,
            accept_eod_state,
            builder: b,
            successors: HashMap::default(),
        };

        let lasts: Vec<PositionInfo> = vec![start_state.into(), start_dot_star_state.into()];
        let firsts: Vec<PositionInfo> = vec![start_dot_star_state.into()];
        bs.connect_regions(&lasts, &firsts);

        bs
    }

    #[allow(dead_code)]
    pub(in crate::parser) fn get_builder(&self) -> &NfaBuilder {
        self.builder
    }

    pub(in crate::parser) fn get_builder_mut(&mut self) -> &mut NfaBuilder {
        self.builder
    }

    pub(crate) fn connect_regions(&mut self, lasts: &[PositionInfo], firsts: &[PositionInfo]) {
        for last in lasts {
            self.connect_successors(*last, firsts.to_vec());
        }
    }

    fn connect_successors(&mut self, from: PositionInfo, mut tolist: Vec<PositionInfo>) {
        debug_assert!(from.pos != GlushkovBuildState::pos_epsilon());

        filter_edges(self, from, &mut tolist);

        let i = tolist.iter().position(|e| e.pos == self.accept_state);
        if let Some(i) = i {
            let fakedot = self.builder.make_position();
            tolist[i] = fakedot.into();
        }

        let succ = self.successors.entry(from.pos).or_insert_with(HashSet::new);

        for to in &tolist {
            succ.insert(*to);
        }
    }

    fn pos_epsilon() -> Position {
        Position::new(NfaVertex::end().index() - 1)
    }
}

fn filter_edges(bs: &GlushkovBuildState, from: PositionInfo, tolist: &mut Vec<PositionInfo>) {
    if from.pos == bs.start_dot_star_state {
        // If we're connecting from start-dotstar, remove all caret flavored
        // positions.
        tolist.retain(|e| !e.flags.contains(PosFlags::NOFLOAT));
        if from.flags.contains(PosFlags::NOFLOAT) {
            tolist.clear();
        }
    } else if from.pos == bs.start_state {
        // If we're connecting from start, we should remove any epsilons that
        // aren't caret flavored.
        tolist.retain(|e| e.pos != GlushkovBuildState::pos_epsilon() || e.flags.is_empty());
        tolist.retain(|e| !e.flags.contains(PosFlags::MUST_FLOAT | PosFlags::NOFLOAT));
    }

    if bs
        .builder
        .get_assert_flag(from.pos)
        .contains(PosFlags::MULTILINE_START)
    {
        // If we have a (mildly boneheaded) pattern like /^$/m, we're right up
        // against the edge of what we can do without true assertion support.
        // Here we have an evil hack to prevent us plugging the `\n` generated
        // by the caret right into accept_eod (which is in the firsts of the
        // dollar).
        //
        // This is due to the 'interesting quirk' that multiline ^ does not not
        // match a newline at the end of buffer.
        tolist.retain(|e| e.pos != bs.accept_eod_state);
    }
}

pub(crate) fn make_glushkov_build_state(b: &mut NfaBuilder) -> GlushkovBuildState {
    GlushkovBuildState::new(b)
}
".

(** src/smallwrite/smallwrite_build.rs *)
Definition smallwrite_build_rs : string := "//! Small-write engine build code.

use crate::compiler::ExpressionInfo;
use crate::nfagraph::NgHolder;
use crate::util::{CompileContext, ReportId, ReportManager, Ue2Literal};
use crate::SomType;
use petgraph::graph::{DefaultIx, NodeIndex};
use petgraph::{Direction, Graph};
use std::collections::HashSet;
use std::ptr::NonNull;

const MAX_TRIE_VERTICES: usize = 8_000;

struct LitTrieVertexProps {
    /// Character reached on this vertex.
    c: u8,
    /// Managed reports fired on this vertex.
    reports: HashSet<ReportId>,
}

impl LitTrieVertexProps {
    fn with_byte(c: u8) -> Self {
        Self {
            c,
            reports: HashSet::new(),
        }
    }
}

impl Default for LitTrieVertexProps {
    fn default() -> Self {
        Self {
            c: 0,
            reports: HashSet::new(),
        }
    }
}

struct LitTrieEdgeProps;

type LitTrieVertex = NodeIndex<DefaultIx>;

/// A graph used to store a trie of literals (for later AC construction into a
/// DFA).
struct LitTrie {
    inner: Graph<LitTrieVertexProps, LitTrieEdgeProps>,

    root: LitTrieVertex,
}

impl LitTrie {
    #[allow(dead_code)]
    fn is_empty(&self) -> bool {
        self.inner.node_count() == 1
    }

    #[allow(dead_code)]
    fn all_reports(&self) -> HashSet<ReportId> {
        self.inner.node_indices().fold(HashSet::new(), |mut s, v| {
            s.extend(&self.inner[v].reports);
            s
        })
    }
}

impl Default for LitTrie {
    fn default() -> Self {
        let mut g = Graph::<LitTrieVertexProps, LitTrieEdgeProps>::default();
        let root = g.add_node(LitTrieVertexProps::default());
        Self { inner: g, root }
    }
}

/// Small-write engine build interface.
pub(crate) struct SmallWriteBuild<'a> {
    pub(crate) rm: NonNull<ReportManager<'a>>,
    cc: &'a CompileContext,

    lit_trie: LitTrie,
    lit_trie_nocase: LitTrie,
    num_literals: usize,
    poisoned: bool,
}

impl<'a> SmallWriteBuild<'a> {
    /// Construct a usable `SmallWrite` builder.
    pub(crate) fn new(num_patterns: usize, cc: &'a CompileContext) -> Self {
        let poisoned =
            !cc.grey.allow_small_write || num_patterns > cc.grey.small_write_max_patterns;
        Self {
            rm: NonNull::dangling(),
            cc,
            lit_trie: LitTrie::default(),
            lit_trie_nocase: LitTrie::default(),
            num_literals: 0,
            poisoned,
        }
    }

    #[allow(clippy::blocks_in_if_conditions)]
    #[allow(dead_code)]
    pub(crate) fn add_expression(&mut self, g: &NgHolder, expr: &ExpressionInfo) {
        // If the graph is poisoned (i.e. we can't build a SmallWrite version),
        // we don't even try.
        if self.poisoned {
            return;
        }

        // No SOM support in small-write engine.
        if expr.som != SomType::None {
            self.poisoned = true;
            return;
        }

        // No vacuous graph support in small-write engine.
        if g.is_vacuous() {
            self.poisoned = true;
            return;
        }

        if g.all_reports()
            .into_iter()
            .any(|id| unsafe { self.rm.as_ref().get_report(id).min_length > 0 })
        {
            self.poisoned = true;
            return;
        }

        unimplemented!();
    }

    pub(crate) fn add_literal(&mut self, literal: &Ue2Literal, r: ReportId) {
        // If the graph is poisoned (i.e. we can't build a `SmallWrite`
        // version), we don't even try.
        if self.poisoned {
            return;
        }

        if literal.len() > self.cc.grey.small_write_largest_buffer {
            return; // too long
        }

        self.num_literals += 1;
        if self.num_literals > self.cc.grey.small_write_max_literals {
            // Exceeded literal limit.
            self.poisoned = true;
            return;
        }

        let trie = if literal.any_nocase() {
            &mut self.lit_trie_nocase
        } else {
            &mut self.lit_trie
        };
        if !add_to_trie(literal, r, trie) {
            self.poisoned = true;
        }
    }
}

fn add_to_trie(literal: &Ue2Literal, report: ReportId, trie: &mut LitTrie) -> bool {
    let mut u = trie.root;
    for c in literal.iter() {
        u = trie
            .inner
            .neighbors_directed(u, Direction::Outgoing)
            .find(|v| trie.inner[*v].c == c.c)
            .unwrap_or_else(|| {
                let next = trie.inner.add_node(LitTrieVertexProps::with_byte(c.c));
                trie.inner.add_edge(u, next, LitTrieEdgeProps {});
                next
            });
    }

    trie.inner[u].reports.insert(report);

    trie.inner.node_count() <= MAX_TRIE_VERTICES
}
".

(** src/compiler/expression_info.rs *)
Definition expression_info_rs : string := "use crate::util::ReportId;
use crate::SomType;

/// Properties of an expression.
#[allow(clippy::struct_excessive_bools)]
#[derive(Clone)]
pub(crate) struct ExpressionInfo {
    /// Index of the expression represented by this graph.
    ///
    /// Used:
    /// - down the track in error handling
    /// - for identifying parts of an expression in highlander mode
    pub(crate) index: usize,

    /// Report ID specified by the user.
    pub(crate) report: ReportId,

    /// Vacuous pattern is allowed. (HS_FLAG_ALLOWEMPTY)
    #[allow(dead_code)]
    pub(super) allow_vacuous: bool,

    /// ""Highlander"" (single match) pattern. (HS_FLAG_SINGLEMATCH)
    pub(crate) highlander: bool,

    /// UTF-8 pattern. (`HS_FLAG_UTF8`)
    pub(super) utf8: bool,

    /// Prefiltering pattern. (`HS_FLAG_PREFILTER`)
    pub(super) prefilter: bool,

    /// Start-of-match type requested, or SOM_NONE.
    pub(crate) som: SomType,

    /// Quiet on match.
    pub(crate) quiet: bool,
}
".

(** src/nfagraph/ng.rs *)
Definition ng_rs : string := "use crate::compiler::ExpressionInfo;
use crate::nfagraph::NgHolder;
use crate::rose::RoseBuild;
use crate::util::{
    make_e_callback, make_som_relative_callback, BoundaryReports, CompileContext, Depth,
    ExternalReportInfo, ReportManager,
};
use crate::util::{mixed_sensitivity, Ue2Literal};
use crate::{CompileError, ErrorKind, SmallWriteBuild, SomType};
use maplit::hashset;
use std::cmp::min;
use std::convert::TryInto;
use std::marker::PhantomPinned;
use std::pin::Pin;
use std::ptr::NonNull;

pub(crate) struct Ng<'a> {
    /// The length of the shortest corpus which can match a pattern contained in
    /// the `Ng` (excluding the boundary reports used by vacuous patterns, which
    /// give an effective `min_width` of zero).
    min_width: Depth,

    rm: ReportManager<'a>,
    #[allow(dead_code)]
    boundary: BoundaryReports,
    pub(crate) cc: &'a CompileContext,

    smwr: SmallWriteBuild<'a>,
    pub(crate) rose: RoseBuild<'a>,
    _pin: PhantomPinned,
}

impl<'a> Ng<'a> {
    pub(crate) fn new(
        cc: &'a CompileContext,
        num_patterns: usize,
        _som_precision: usize,
    ) -> Pin<Box<Self>> {
        let res = Self {
            min_width: Depth::infinity(),
            rm: ReportManager::new(&cc.grey),
            boundary: BoundaryReports::default(),
            cc: &cc,
            smwr: SmallWriteBuild::new(num_patterns, cc),
            rose: RoseBuild {
                cc: &cc,
                has_som: false,
            },
            _pin: PhantomPinned,
        };
        let mut boxed = Box::pin(res);

        let rm = NonNull::from(&boxed.rm);
        unsafe {
            let mut_ref: Pin<&mut Self> = Pin::as_mut(&mut boxed);
            Pin::get_unchecked_mut(mut_ref).smwr.rm = rm;
        }
        boxed
    }

    pub(crate) fn add_graph(&mut self, expr: &ExpressionInfo, _g: &NgHolder) {
        if expr.som != SomType::None {
            self.rose.has_som = true;
        }
    }

    pub(crate) fn add_literal(
        &mut self,
        literal: &Ue2Literal,
        expr_index: u32,
        external_report: u32,
        highlander: bool,
        som: SomType,
        quiet: bool,
    ) -> Result<bool, CompileError> {
        debug_assert!(!literal.is_empty());

        if !self.cc.grey.shortcut_literals {
            return Ok(false);
        }

        // We can't natively handle arbitrary literals with mixed case
        // sensitivity in Rose -- they require mechanisms like benefits masks,
        // which have length limits etc. Better to let those go through full
        // graph processing.
        if mixed_sensitivity(literal) {
            return Ok(false);
        }

        // Register external report and validate highlander constraints.
        self.rm.register_ext_report(
            external_report,
            ExternalReportInfo::new(highlander, expr_index),
        )?;

        let id = if let SomType::None = som {
            let ekey = if highlander {
                Some(self.rm.get_exhaustible_key(external_report))
            } else {
                None
            };
            let r = make_e_callback(external_report, 0, ekey, quiet);
            self.rm.get_internal_id(&r)
        } else {
            debug_assert!(!highlander); // not allowed, checked earlier.
            let r = make_som_relative_callback(
                external_report,
                0,
                literal.len().try_into().expect(""literal too long""),
            );
            let id = self.rm.get_internal_id(&r);
            self.rose.has_som = true;
            id
        }?;

        self.rose.add(false, false, literal, &hashset! {id});

        self.min_width = min(
            self.min_width,
            literal
                .len()
                .try_into()
                .map_err(|_| CompileError::new(ErrorKind::Other, ""depth overflow""))?,
        );

        // Inform small write handler about this literal.
        self.smwr.add_literal(literal, id);

        Ok(true)
    }
}
".

(** src/parser/shortcut_literal.rs *)
Definition shortcut_literal_rs : string := "use super::ascii_component_class::AsciiComponentClass;
use crate::compiler::ParsedExpression;
use crate::nfagraph::Ng;
use crate::parser::walk_component;
use crate::parser::{ComponentAlternation, ComponentSequence, ConstComponentVisitor};
use crate::util::Ue2Literal;
use crate::CompileError;
use std::convert::TryInto;
use std::pin::Pin;

pub(crate) struct NotLiteral {}

#[derive(Default)]
struct ConstructLiteralVisitor {
    lit: Ue2Literal,
}

impl ConstComponentVisitor for ConstructLiteralVisitor {
    type Error = NotLiteral;

    fn pre_ascii_component_class(&mut self, c: &AsciiComponentClass) -> Result<(), Self::Error> {
        let cr = &c.cr;
        let width = cr.count();
        if width == 1 {
            self.lit
                .push(cr.find_first().expect(""should have one bit set""), false);
        } else if width == 2 && cr.is_caseless_char() {
            self.lit
                .push(cr.find_first().expect(""should have two bits set""), true);
        } else {
            return Err(Self::Error {});
        }
        Ok(())
    }

    fn pre_component_sequence(&mut self, _c: &ComponentSequence) -> Result<(), Self::Error> {
        // Pass through.
        Ok(())
    }

    fn pre_component_alternation(&mut self, _c: &ComponentAlternation) -> Result<(), Self::Error> {
        Err(NotLiteral {})
    }

    fn during_ascii_component_class(&self, _c: &AsciiComponentClass) {}
    fn during_component_alternation(&self, _c: &ComponentAlternation) {}
    fn during_component_sequence(&self, _c: &ComponentSequence) {}

    fn post_ascii_component_class(&mut self, _c: &AsciiComponentClass) {}
    fn post_component_alternation(&mut self, _c: &ComponentAlternation) {}
    fn post_component_sequence(&mut self, _c: &ComponentSequence) {}
}

/// Returns `true` if the literal expression could be added to Rose.
pub(crate) fn shortcut_literal(
    ng: &mut Pin<Box<Ng>>,
    pe: &ParsedExpression,
) -> Result<bool, CompileError> {
    if !ng.cc.grey.allow_literal {
        return Ok(false);
    }

    let expr = &pe.expr;

    let mut vis = ConstructLiteralVisitor::default();
    if let Err(_not_literal) = walk_component(&mut vis, &pe.component) {
        return Ok(false);
    }

    let lit = &vis.lit;

    if lit.is_empty() {
        return Ok(false);
    }

    unsafe {
        ng.as_mut().get_unchecked_mut().add_literal(
            lit,
            expr.index.try_into().unwrap(),
            expr.report,
            expr.highlander,
            expr.som,
            expr.quiet,
        )
    }
}
".

(** src/compiler.rs *)
Definition compiler_rs : string := "mod expression_info;

pub(crate) use expression_info::ExpressionInfo;

use crate::database::Database;
use crate::nfagraph::{make_nfa_builder, Ng, NgHolder};
use crate::parser::{
    make_glushkov_build_state, parse, prefilter_tree, shortcut_literal, Component, ParseMode,
};
use crate::rose::RoseEngine;
use crate::util::ReportId;
use crate::{CompileError, ErrorKind};
use crate::{Flags, SomType};
use std::pin::Pin;

pub(crate) struct ParsedExpression {
    pub(crate) expr: ExpressionInfo,
    pub(crate) component: Component,
}

impl ParsedExpression {
    fn new(
        index: usize,
        expression: &str,
        flags: Flags,
        id: ReportId,
    ) -> Result<Self, CompileError> {
        let mut expr = ExpressionInfo {
            index,
            report: id,
            allow_vacuous: false,
            highlander: flags.contains(Flags::SINGLEMATCH),
            utf8: false,
            prefilter: flags.contains(Flags::PREFILTER),
            som: SomType::None,
            quiet: flags.contains(Flags::QUIET),
        };
        if flags.contains(Flags::QUIET | Flags::SOM_LEFTMOST) {
            return Err(CompileError::new(
                ErrorKind::Other,
                ""QUIET is not supported in combination with SOM_LEFTMOST."",
            ));
        }
        let flags = flags & !Flags::QUIET;
        let mut mode = ParseMode::new(flags);

        let component = parse(expression, &mut mode)?;

        expr.utf8 = mode.utf8; // utf8 may be set by parse()

        Ok(Self { expr, component })
    }
}

pub(crate) struct BuiltExpression {
    pub(crate) expr: ExpressionInfo,
    pub(crate) g: NgHolder,
}

pub(crate) fn add_expression(
    ng: &mut Pin<Box<Ng>>,
    index: usize,
    expression: &str,
    flags: Flags,
    id: ReportId,
) -> Result<(), CompileError> {
    let cc = &ng.cc;

    if expression.len() > cc.grey.limit_pattern_length {
        return Err(CompileError::new(
            ErrorKind::Other,
            ""Pattern length exceeds limit."",
        ));
    }

    let mut pe = ParsedExpression::new(index, expression, flags, id)?;

    // Apply prefiltering transformations if desired.
    if pe.expr.prefilter {
        prefilter_tree(&pe.component);
    }

    // If this expression is a literal, we can feed it directly to Rose rather
    // than building the NFA graph.
    if shortcut_literal(ng, &pe)? {
        return Ok(());
    }

    let build_expr = build_graph(&mut pe);

    unsafe {
        let inner: Pin<&mut Ng> = ng.as_mut();
        inner
            .get_unchecked_mut()
            .add_graph(&build_expr.expr, &build_expr.g);
    };

    Ok(())
}

fn generate_rose_engine(ng: &Ng) -> RoseEngine {
    ng.rose.build_rose()
}

fn db_create(rose: RoseEngine) -> Database {
    Database::new(rose)
}

pub(crate) fn build(ng: &Ng) -> Database {
    let rose = generate_rose_engine(ng);

    db_create(rose)
}

pub(crate) fn build_graph(pe: &mut ParsedExpression) -> BuiltExpression {
    let mut builder = make_nfa_builder(pe);

    let mut bs = make_glushkov_build_state(&mut builder);

    // Map position IDs to characters/components.
    pe.component.note_positions(&mut bs);

    builder.get_graph()
}
".

(** src/lib.rs, without its tests *)
Definition lib_rs : string := "mod compiler;
mod database;
mod grey;
mod nfagraph;
mod parser;
mod rose;
mod runtime;
mod scratch;
mod smallwrite;
mod som;
mod util;

use bitflags::bitflags;
use compiler::{add_expression, build};
pub use database::Database;
use grey::Grey;
use itertools::izip;
use nfagraph::Ng;
pub use runtime::{scan, Error};
pub use scratch::Scratch;
use std::convert::TryInto;
pub use util::compile_error::{CompileError, ErrorKind};
use util::{CompileContext, ReportId};

pub(crate) use smallwrite::SmallWriteBuild;
pub(crate) use som::SomType;

/// Compile mode.
///
/// The mode is used as the mode parameter of the various compile calls
/// ([`compile`][`compile`] and [`compile_multi`][`compile_multi`]).
///
/// [`compile`]: fn.compile.html
/// [`compile_multi`]: fn.compile_multi.html
pub enum Mode {
    /// Block scan database.
    Block,
    /// Streaming database.
    Stream(Option<SomHorizon>),
    /// Vectored scanning database.
    Vectored,
}

impl Mode {
    fn is_streaming(&self) -> bool {
        matches!(self, Self::Stream(_) | Self::Vectored)
    }

    fn is_vectored(&self) -> bool {
        matches!(self, Self::Vectored)
    }

    /// Returns the number of bytes of SOM precision.
    fn som_precision(&self) -> usize {
        match self {
            Self::Stream(Some(horizon)) => match horizon {
                SomHorizon::Large => 8,
                SomHorizon::Medium => 4,
                SomHorizon::Small => 2,
            },
            Self::Vectored => 8,
            _ => 0,
        }
    }
}

pub enum SomHorizon {
    Large,
    Medium,
    Small,
}

/// Compiles a regular expression.
///
/// # Errors
///
/// Returns an error if the expression is invalid.
pub fn compile(expression: &str, flags: Flags, mode: &Mode) -> Result<Database, CompileError> {
    compile_multi_int(&[expression], &[flags], &[0], mode, &Grey::default())
}

/// Compiles multiple regular expressions.
///
/// # Errors
///
/// Returns an error if any expression is invalid.
pub fn compile_multi(
    expressions: &[&str],
    flags: &[Flags],
    ids: &[ReportId],
    mode: &Mode,
) -> Result<Database, CompileError> {
    compile_multi_int(expressions, flags, ids, mode, &Grey::default())
}

fn compile_multi_int(
    expressions: &[&str],
    flags: &[Flags],
    ids: &[ReportId],
    mode: &Mode,
    g: &Grey,
) -> Result<Database, CompileError> {
    if expressions.is_empty() {
        return Err(CompileError::new(
            ErrorKind::Other,
            ""Invalid parameter: expressions is empty"",
        ));
    }

    if expressions.len() > g.limit_pattern_count {
        return Err(CompileError::new(
            ErrorKind::Other,
            ""Number of patterns too large"",
        ));
    }

    let is_streaming = mode.is_streaming();
    let is_vectored = mode.is_vectored();
    let som_precision = mode.som_precision();

    let cc = CompileContext::new(is_streaming, is_vectored, g);
    let mut ng = Ng::new(&cc, expressions.len(), som_precision);

    for (i, (exp, &fl, &id)) in izip!(expressions, flags, ids).enumerate() {
        if let Err(mut e) = add_expression(&mut ng, i, exp, fl, id) {
            e.set_expression_index(i.try_into().unwrap());
            return Err(e);
        }
    }

    Ok(build(&ng))
}

bitflags! {
    pub struct Flags : u16 {
        const CASELESS = 0x0001;
        const DOTALL = 0x0002;
        const MULTILINE = 0x0004;
        const SINGLEMATCH = 0x0008;
        const ALLOWEMPTY = 0x0010;
        const UTF8 = 0x0020;
        const UCP = 0x0040;
        const PREFILTER = 0x0080;
        const SOM_LEFTMOST = 0x0100;
        const COMBINATION = 0x0200;
        const QUIET = 0x0400;
    }
}

".

Definition read (l : list string) : option (list item) :=
  fold_right (fun s r => match parse s, r with Some a, Some b => Some (a ++ b)%list | _, _ => None end) (Some []) l.
(** Types the compiler infers for literals from their later uses: [count] and [find_nth] sum what
    [count_ones] gives, [describe_class_int] returns its counter. *)
Definition inferred : hints :=
  [("count", "sum", "u32"); ("find_nth", "sum", "u32"); ("describe_class_int", "i", "usize"); ("make_and_cmp_mask", "lo", "u8"); ("make_and_cmp_mask", "hi", "u8")].
(** The types [try_into] is used at: (function, the method applied to its result, type). *)
Definition targets : hints :=
  [("compile_multi_int", "unwrap", "u32"); ("shortcut_literal", "unwrap", "u32"); ("add_literal", "expect", "u64"); ("add_literal", "map_err", "Depth"); ("get_internal_id", "expect", "u32"); ("get_exhaustible_key", "expect", "u32")].
(** Structs that hold a [&mut]: the state of the construction holds the builder, the dump its writer. *)
Definition lent_out : loans := [("build_graph", "builder", ("bs", "builder")); ("dump_tree", "out", ("vis", "out"))].
Definition sources : list string := [bitfield_rs; charreach_rs; compare_rs; ue2common_rs; unicode_def_rs; dump_charclass_rs; compile_error_rs; parser_util_rs; ascii_component_class_rs; component_class_rs; component_alternation_rs; component_sequence_rs; component_rs; control_verbs_rs; parser_rs; grey_rs; depth_rs; report_rs; report_manager_rs; boundary_reports_rs; compile_context_rs; ue2string_rs; som_rs; rose_build_resources_rs; rose_build_bytecode_rs; rose_internal_rs; rose_build_rs; block_rs; database_rs; scratch_rs; runtime_rs; const_component_visitor_rs; dump_rs; position_rs; position_info_rs; prefilter_rs; ng_holder_rs; ng_builder_rs; build_state_rs; smallwrite_build_rs; expression_info_rs; ng_rs; shortcut_literal_rs; compiler_rs; lib_rs].
Definition util_program : program :=
  match read sources with Some l => linked targets lent_out (aliases l) (typed (collect inferred l)) | None => Program [] [] end.
